(* C47: Maxwell's demon.
   Proved: what a check counts (independently of the order of the particles), what is recorded over a whole run, when the door is kept
   open, and that a rejected window is undone exactly as long as every particle is still in its place of memory.
   Refuted: the demon keeps data by place, not by particle, so reordering breaks the way back; a second run takes the far positions of an
   open door for its proper place; removed particles that are still marked are counted; a lost door particle shifts the others. *)
From Coq Require Import QArith List Bool ZArith Lia Lqa Permutation.
From Verif Require Import Model_Demon Spec_Demon Proofs_Demon.
Import ListNotations.
Local Open Scope Q_scope.

(* What a check counts. *)
Theorem C47_counts_partial c l : let r := count_changes c l in
  c_nl r = number (went_right c) l /\ c_nr r = number (went_left c) l /\
  c_el r == kinetic (went_right c) l /\ c_er r == kinetic (went_left c) l /\
  c_Nl r = number (fun p => mobile p && on_left c p) l /\ c_Nr r = number (fun p => mobile p && negb (on_left c p)) l /\
  c_El r == kinetic (fun p => mobile p && on_left c p) l /\ c_Er r == kinetic (fun p => mobile p && negb (on_left c p)) l /\
  (c_Nl r + c_Nr r = number mobile l)%Z /\ c_El r + c_Er r == kinetic mobile l.
Proof.
  intros r. destruct (count_gen c l (mkC 0 0 0 0 0 0 0 0)) as (I1 & I2 & I3 & I4 & I5 & I6 & I7 & I8). cbv zeta in *.
  change (fold_left (count_one c) l (mkC 0 0 0 0 0 0 0 0)) with r in *. cbn [c_nl c_nr c_el c_er c_Nl c_Nr c_El c_Er] in *.
  split; [lia|]. split; [lia|]. split; [rewrite I3; ring|]. split; [rewrite I4; ring|]. split; [lia|]. split; [lia|].
  split; [rewrite I7; ring|]. split; [rewrite I8; ring|]. split; [apply count_total|].
  rewrite I7, I8. rewrite <- (kinetic_split mobile (on_left c) l). ring.
Qed.
Print Assumptions C47_counts_partial.

(* Every record of a run adds up to the number of mobile particles, the series have the same times, and their length is the number of
   windows that were counted as opened or closed: a rejected window leaves no record. *)
Theorem C47_records_partial n d s : demon_run n (d, s) ->
  (forall t El Er Nl Nr, In (t, El, Er, Nl, Nr) (d_sides d) -> (Nl + Nr = n)%Z) /\
  map (fun '(t, _, _, _, _) => t) (d_sides d) = map (fun '(t, _, _) => t) (d_current d) /\
  length (d_sides d) = (d_opened d + d_closed d)%nat /\ length (d_current d) = (d_opened d + d_closed d)%nat.
Proof.
  intros H. apply run_invariant in H. destruct H as (_ & I2 & I3 & I4 & _). split; [|split; [|split]].
  - intros t El Er Nl Nr Hin. rewrite Forall_forall in I2. apply (I2 _ Hin).
  - rewrite (map_ext _ (fun r : Q * Q * Q * Z * Z => fst (fst (fst (fst r))))) by (intros [[[[? ?] ?] ?] ?]; reflexivity).
    rewrite I3. apply map_ext. intros [[? ?] ?]. reflexivity.
  - exact I4.
  - rewrite <- I4. rewrite <- (map_length (fun r => fst (fst r)) (d_current d)), <- I3. apply map_length.
Qed.
Print Assumptions C47_records_partial.

Lemma Forall2_with_in {A B} (R S : A -> B -> Prop) l l' : (forall a b, In a l -> R a b -> S a b) -> Forall2 R l l' -> Forall2 S l l'.
Proof. intros H F. induction F; constructor; [apply H; [now left|assumption]|]. apply IHF. intros a b Ha. apply H. now right. Qed.
Lemma number_perm f l l' : Permutation l l' -> number f l = number f l'.
Proof. induction 1; rewrite ?number_cons; lia. Qed.

Lemma due_spec d s : due d s <-> Qle_bool (d_tau d) (s_time s - d_last d) && negb (Qle_bool (s_time s) (d_start d)) = true.
Proof.
  unfold due. rewrite andb_true_iff, negb_true_iff, Qle_bool_iff. split; intros [A B]; split; try exact A.
  - apply not_true_is_false. rewrite Qle_bool_iff. lra.
  - apply Qnot_le_lt. rewrite <- Qle_bool_iff. congruence.
Qed.

(* Between the checks nothing happens, except that the sides are taken once after the door was closed. *)
Theorem C47_waits_partial d s : ~ due d s ->
  (d_just d = false -> pre_forces (d, s) = Some (d, s)) /\
  (d_just d = true -> exists d' s', pre_forces (d, s) = Some (d', s') /\ d_just d' = false /\ d_open d' = d_open d /\ s_time s' = s_time s /\
     d_sides d' = d_sides d /\ d_current d' = d_current d /\ d_last d' = d_last d /\ d_ck d' = d_ck d /\
     Forall2 (fun p p' => p_side p' = (if on_left (d_part d) p then 0 else 1)%Z /\ p_id p' = p_id p /\ p_x p' = p_x p /\ p_v p' = p_v p /\ p_im p' = p_im p)
       (s_parts s) (s_parts s')).
Proof.
  intros H. unfold pre_forces. destruct (Qle_bool _ _ && negb _) eqn:E; [exfalso; apply H; now apply due_spec|]. split; intros Hj; rewrite Hj; [reflexivity|].
  eexists _, _. split; [reflexivity|]. cbn. repeat match goal with |- _ /\ _ => split end; try reflexivity.
  unfold assign_side. clear. induction (s_parts s) as [|p l IH]; cbn; constructor; [|exact IH]. tauto.
Qed.
Print Assumptions C47_waits_partial.

(* The rules: 0 nobody may have gone to the left, 1 at least as much energy went right as left, 2 at least as many went right as left. *)
Definition rule_allows (rule : Z) (c : Q) (l : list part) : Prop :=
  (rule = 0%Z /\ forall p, In p l -> mobile p = true -> on_left c p = true -> from_left p = true) \/
  (rule = 1%Z /\ kinetic (went_left c) l <= kinetic (went_right c) l) \/
  (rule = 2%Z /\ (number (went_left c) l <= number (went_right c) l)%Z).

Lemma number_zero f l : number f l = 0%Z <-> forall p, In p l -> f p = false.
Proof.
  induction l as [|p l IH]; [split; [intros _ q []|reflexivity]|]. rewrite number_cons. assert (0 <= number f l)%Z by (unfold number; lia). split.
  - intros H0 q [<- |Hq]; [destruct (f p); [lia|reflexivity]|]. apply IH; [destruct (f p); lia|exact Hq].
  - intros H0. rewrite (H0 p (or_introl eq_refl)). rewrite (proj2 IH); [reflexivity|]. intros q Hq. apply H0. now right.
Qed.
Lemma kinetic_none f l : number f l = 0%Z -> kinetic f l == 0.
Proof.
  intros H. rewrite number_zero in H. induction l as [|p l IH]; [reflexivity|]. rewrite kinetic_cons, (H p (or_introl eq_refl)), IH; [ring|]. intros q Hq. apply H. now right.
Qed.

Lemma rule_ok rule c l : (0 <= rule <= 2)%Z -> should_door_open rule (count_changes c l) = true <-> rule_allows rule c l.
Proof.
  intros Hr. destruct (C47_counts_partial c l) as (I1 & I2 & I3 & I4 & _). unfold should_door_open, rule_allows. rewrite I1, I2.
  assert (H : rule = 0%Z \/ rule = 1%Z \/ rule = 2%Z) by lia. destruct H as [-> |[-> | ->]]; cbn [Z.eqb Pos.eqb].
  - rewrite andb_true_iff, Z.eqb_eq, Qeq_bool_iff, I4. split.
    + intros [H0 _]. left. split; [reflexivity|]. rewrite number_zero in H0. intros p Hp Hm Ho. specialize (H0 p Hp). unfold went_left in H0. rewrite Hm, Ho in H0.
      cbn in H0. now apply negb_false_iff.
    + intros [[_ H]|[[H _]|[H _]]]; try discriminate. assert (H0 : number (went_left c) l = 0%Z).
      { apply number_zero. intros p Hp. unfold went_left. destruct (mobile p) eqn:Hm; [|reflexivity]. destruct (on_left c p) eqn:Ho; [|reflexivity]. cbn. now rewrite (H p Hp Hm Ho). }
      split; [exact H0|]. now apply kinetic_none.
  - rewrite Qle_bool_iff, I3, I4. split; [intros; right; left; tauto|]. intros [[H _]|[[_ H]|[H _]]]; try discriminate; exact H.
  - rewrite Z.leb_le. split; [intros; right; right; tauto|]. intros [[H _]|[[H _]|[_ H]]]; try discriminate; exact H.
Qed.

(* A window with the door open is kept exactly when the rule allows it. *)
Theorem C47_rule_partial d s d' s' : due d s -> d_open d = true -> (0 <= d_rule d <= 2)%Z -> pre_forces (d, s) = Some (d', s') ->
  (d_open d' = true <-> rule_allows (d_rule d) (d_part d) (s_parts s)) /\
  (d_open d' = true ->
     s_time s' = s_time s /\ d_last d' = s_time s /\ d_opened d' = S (d_opened d) /\ d_closed d' = d_closed d /\ d_just d' = d_just d /\
     d_ck d' = map (fun p => (p_x p, p_v p)) (s_parts s) /\
     Forall2 (fun p p' => p_side p' = (if on_left (d_part d) p then 0 else 1)%Z /\ p_id p' = p_id p /\ p_x p' = p_x p /\ p_v p' = p_v p /\ p_im p' = p_im p /\ p_alive p' = p_alive p)
       (s_parts s) (s_parts s') /\
     exists de El Er, de == kinetic (went_right (d_part d)) (s_parts s) - kinetic (went_left (d_part d)) (s_parts s) /\
       El == kinetic (fun p => mobile p && on_left (d_part d) p) (s_parts s) /\ Er == kinetic (fun p => mobile p && negb (on_left (d_part d) p)) (s_parts s) /\
       d_current d' = (s_time s, (number (went_right (d_part d)) (s_parts s) - number (went_left (d_part d)) (s_parts s))%Z, de) :: d_current d /\
       d_sides d' = (s_time s, El, Er, number (fun p => mobile p && on_left (d_part d) p) (s_parts s), number (fun p => mobile p && negb (on_left (d_part d) p)) (s_parts s)) :: d_sides d) /\
  (d_open d' = false -> d_current d' = d_current d /\ d_sides d' = d_sides d /\ d_opened d' = d_opened d /\ d_closed d' = d_closed d /\ d_just d' = true /\
     s_time s' = d_last d /\ d_last d' = d_last d /\ d_ck d' = d_ck d).
Proof.
  intros Hd Ho Hr H. unfold pre_forces in H. rewrite (proj1 (due_spec d s) Hd), Ho in H. rewrite <- (rule_ok _ _ _ Hr).
  destruct (should_door_open (d_rule d) (count_changes (d_part d) (s_parts s))) eqn:Es.
  - injection H as <- <-. cbn. rewrite Ho. split; [tauto|]. split; [|discriminate]. intros _.
    repeat match goal with |- _ /\ _ => split end; try reflexivity.
    + unfold checkpoint, assign_side. rewrite map_map. reflexivity.
    + unfold assign_side. clear. induction (s_parts s) as [|p l IH]; cbn; constructor; [|exact IH]. tauto.
    + destruct (C47_counts_partial (d_part d) (s_parts s)) as (I1 & I2 & I3 & I4 & I5 & I6 & I7 & I8 & _).
      eexists _, _, _. split; [|split; [|split; [|split]]]; [| | |rewrite <- I1, <- I2; reflexivity|rewrite <- I5, <- I6; reflexivity].
      * rewrite I3, I4. reflexivity.
      * exact I7.
      * exact I8.
  - unfold revert in H. destruct (_ =? _)%nat; [|discriminate]. unfold close_door in H. destruct (put_back _ _ _); [|discriminate].
    injection H as <- <-. cbn. split; [split; discriminate|]. split; [discriminate|]. intros _. tauto.
Qed.
Print Assumptions C47_rule_partial.

(* A rejected window is undone: if the sizes agree (same particles in the same places as at the checkpoint) everything is back where it
   was at the checkpoint and the time as well, except that the door is in its place; otherwise there is an exception. *)
Theorem C47_revert_partial d s : due d s -> d_open d = true -> (0 <= d_rule d <= 2)%Z -> ~ rule_allows (d_rule d) (d_part d) (s_parts s) ->
  (length (d_ids d) <= length (d_pos d))%nat ->
  (length (s_parts s) <> length (d_ck d) -> pre_forces (d, s) = None) /\
  (length (s_parts s) = length (d_ck d) -> exists d' s', pre_forces (d, s) = Some (d', s') /\ d_open d' = false /\ s_time s' = d_last d /\
     length (s_parts s') = length (s_parts s) /\
     forall k p, nth_error (s_parts s) k = Some p -> exists x v p', nth_error (d_ck d) k = Some (x, v) /\ nth_error (s_parts s') k = Some p' /\
       p_v p' = v /\ p_id p' = p_id p /\ p_im p' = p_im p /\ p_side p' = p_side p /\ p_alive p' = p_alive p /\
       (~ In (p_id p) (d_ids d) -> p_x p' = x) /\
       ((forall id, In id (d_ids d) -> exists q, In q (s_parts s) /\ p_id q = id /\ p_alive q = true) -> NoDup (d_ids d) ->
        p_alive p = true -> forall i a, nth_error (d_ids d) i = Some (p_id p) -> nth_error (d_pos d) i = Some a -> p_x p' = a)).
Proof.
  intros Hd Ho Hr Hn Hl. unfold pre_forces. rewrite (proj1 (due_spec d s) Hd), Ho. rewrite <- (rule_ok _ _ _ Hr) in Hn.
  destruct (should_door_open _ _) eqn:Es; [now contradiction Hn|]. unfold revert. cbn [d_ck set_counts d_last]. split; intros E.
  - now rewrite (proj2 (Nat.eqb_neq _ _) E).
  - rewrite (proj2 (Nat.eqb_eq _ _) E). unfold close_door. cbn [s_parts with_time with_parts d_ids set_counts d_pos].
    set (l1 := restore (d_ck d) (s_parts s)). set (ids := update_ids l1 (d_ids d)).
    destruct (put_back_some ids (d_pos d) l1) as [l2 E2]; [etransitivity; [apply update_len|exact Hl]|]. rewrite E2.
    eexists _, _. split; [reflexivity|]. cbn. split; [reflexivity|]. split; [reflexivity|].
    assert (Hlen : length l2 = length (s_parts s)) by (rewrite (put_back_len _ _ _ _ E2); apply restore_len).
    split; [exact Hlen|]. intros k p Hk.
    destruct (restore_nth (d_ck d) _ k p E Hk) as (x & v & Hc & H1).
    destruct (nth_error l2 k) as [p'|] eqn:E'; [|exfalso; apply nth_error_None in E'; assert (k < length (s_parts s))%nat by (apply nth_error_Some; congruence); lia].
    exists x, v, p'. split; [exact Hc|]. split; [reflexivity|].
    destruct (put_back_nth _ _ _ _ E2 k p' E') as (p1 & Hp1 & A1 & A2 & A3 & A4 & A5 & A6). change (nth_error l1 k = Some (set_xv x v p)) in H1. rewrite H1 in Hp1. injection Hp1 as <-.
    cbn [set_xv p_id p_v p_im p_side p_alive p_x] in *. split; [exact A2|]. split; [exact A1|]. split; [exact A3|]. split; [exact A4|]. split; [exact A5|]. split.
    + intros Hni. apply A6. intros [B _]. apply Hni. unfold ids, update_ids in B. apply filter_In in B. tauto.
    + intros Hall Hnd Hal i a Hi Ha.
      assert (Eids : ids = d_ids d).
      { unfold ids, update_ids. assert (G : forall id, In id (d_ids d) -> present l1 id = true).
        { intros id Hid. destruct (Hall id Hid) as (q & Hq & Eq & Aq). apply In_nth_error in Hq as [kq Hkq]. destruct (restore_nth (d_ck d) _ kq q E Hkq) as (xq & vq & _ & Hq1).
          unfold present. apply existsb_exists. exists (set_xv xq vq q). split; [eapply nth_error_In; exact Hq1|]. cbn. rewrite Eq, Aq, Z.eqb_refl. reflexivity. }
        clear - G. induction (d_ids d) as [|j js IH]; [reflexivity|]. cbn. rewrite (G j (or_introl eq_refl)). f_equal. apply IH. intros id H. apply G. now right. }
      rewrite Eids in E2. eapply (put_back_door _ _ _ _ Hnd E2 i (p_id p) a Hi Ha p'); [eapply nth_error_In; exact E'|exact A1|congruence].
Qed.
Print Assumptions C47_revert_partial.

Lemma places_spec far ids : forall l, Forall2 (fun p p' => p_id p' = p_id p /\ p_v p' = p_v p /\ p_im p' = p_im p /\ p_side p' = p_side p /\ p_alive p' = p_alive p /\
  p_x p' = if existsb (Z.eqb (p_id p)) ids && p_alive p then far else p_x p) l (fold_left (fun l id => place id far l) ids l).
Proof.
  induction ids as [|i ids IH]; intros l; cbn [fold_left].
  - induction l as [|p l IHl]; constructor; [|exact IHl]. tauto.
  - specialize (IH (place i far l)). remember (fold_left (fun l id => place id far l) ids (place i far l)) as r eqn:Er. clear Er. revert r IH.
    induction l as [|p l IHl]; intros r IH; inversion IH; subst; constructor; [|now apply IHl].
    match goal with Hh : _ /\ _ |- _ => destruct Hh as (A1 & A2 & A3 & A4 & A5 & A6) end. cbn [existsb]. clear IH IHl.
    destruct ((p_id p =? i)%Z && p_alive p) eqn:Em; cbn [set_x p_id p_v p_im p_side p_alive p_x] in *.
    + apply andb_true_iff in Em as [B1 B2]. rewrite B1, B2. cbn. repeat split; try assumption; try congruence. rewrite A6. destruct (_ && _); reflexivity.
    + repeat split; try assumption. rewrite A6. destruct (p_alive p); [|rewrite !andb_false_r; reflexivity]. rewrite andb_true_r in Em. rewrite Em. reflexivity.
Qed.
Lemma update_same l ids p : In p l -> existsb (Z.eqb (p_id p)) (update_ids l ids) && p_alive p = existsb (Z.eqb (p_id p)) ids && p_alive p.
Proof.
  intros Hp. destruct (p_alive p) eqn:Ea; [|now rewrite !andb_false_r]. rewrite !andb_true_r. apply eq_true_iff_eq. rewrite !existsb_exists. unfold update_ids.
  split; intros (i & Hi & Ei); exists i; (split; [|exact Ei]); [apply filter_In in Hi; tauto|]. apply filter_In. split; [exact Hi|].
  unfold present. apply existsb_exists. exists p. split; [exact Hp|]. rewrite Ea, andb_true_r. apply Z.eqb_eq in Ei. apply Z.eqb_eq. exact Ei.
Qed.

(* A run starts with a fresh window: sides and checkpoint are those of now, the place of each door particle is kept, and the door is open. *)
Theorem C47_start_partial d s : (forall id, In id (d_ids d) -> exists p, In p (s_parts s) /\ p_id p = id /\ p_alive p = true) ->
  (forall p q, In p (s_parts s) -> In q (s_parts s) -> p_alive p = true -> p_alive q = true -> p_id p = p_id q -> p = q) ->
  exists d' s', pre_integrate (d, s) = (d', s') /\ d_open d' = true /\ d_last d' = s_time s /\ s_time s' = s_time s /\ d_opened d' = 0%nat /\ d_closed d' = 0%nat /\
    d_ids d' = d_ids d /\ d_tau d' = d_tau d /\ d_rule d' = d_rule d /\ d_part d' = d_part d /\ d_start d' = d_start d /\
    d_ck d' = map (fun p => (p_x p, p_v p)) (s_parts s) /\
    (forall i p, nth_error (d_ids d) i = Some (p_id p) -> In p (s_parts s) -> p_alive p = true -> nth_error (d_pos d') i = Some (p_x p)) /\
    Forall2 (fun p p' => p_id p' = p_id p /\ p_v p' = p_v p /\ p_im p' = p_im p /\ p_alive p' = p_alive p /\ p_side p' = (if on_left (d_part d) p then 0 else 1)%Z /\
     p_x p' = if existsb (Z.eqb (p_id p)) (d_ids d) && p_alive p then repeat (s_far s) (s_dims s) else p_x p) (s_parts s) (s_parts s').
Proof.
  intros Hall Huniq. unfold pre_integrate. set (l := assign_side (d_part d) (s_parts s)).
  assert (F : Forall2 (fun p q => p_id q = p_id p /\ p_v q = p_v p /\ p_im q = p_im p /\ p_alive q = p_alive p /\ p_x q = p_x p /\ p_side q = (if on_left (d_part d) p then 0 else 1)%Z) (s_parts s) l).
  { unfold l, assign_side. clear. induction (s_parts s) as [|p l IH]; cbn; constructor; [|exact IH]. tauto. }
  assert (Eids : update_ids l (d_ids d) = d_ids d).
  { unfold update_ids. assert (G : forall id, In id (d_ids d) -> present l id = true).
    { intros id Hid. destruct (Hall id Hid) as (q & Hq & Eq & Aq). unfold present. apply existsb_exists. exists (set_side (get_side (d_part d) (p_x q)) q).
      split; [unfold l, assign_side; apply (in_map (fun p => set_side (get_side (d_part d) (p_x p)) p)); exact Hq|]. cbn. rewrite Eq, Aq, Z.eqb_refl. reflexivity. }
    clear - G. induction (d_ids d) as [|j js IH]; [reflexivity|]. cbn. rewrite (G j (or_introl eq_refl)). f_equal. apply IH. intros id H. apply G. now right. }
  rewrite Eids. unfold open_door. cbn [d_ids s_parts with_parts s_far s_dims].
  eexists _, _. split; [reflexivity|]. cbn [set_door d_open d_last d_opened d_closed d_ids d_tau d_rule d_part d_start d_ck d_pos with_parts s_time s_parts].
  do 5 (split; [reflexivity|]). split; [exact Eids|]. do 4 (split; [reflexivity|]). split.
  { unfold checkpoint, l, assign_side. rewrite map_map. reflexivity. }
  split.
  - intros i p Hi Hp Ha. rewrite nth_error_app1 by (rewrite map_length; apply nth_error_Some; congruence). rewrite nth_error_map, Hi. cbn. f_equal.
    unfold position_of. destruct (find (fun q => (p_id q =? p_id p)%Z && p_alive q) l) as [q|] eqn:Ef.
    + apply find_some in Ef as [Hq Eq]. apply andb_true_iff in Eq as [E1 E2]. unfold l, assign_side in Hq. apply in_map_iff in Hq as (q0 & <- & Hq0). cbn in *.
      f_equal. apply Huniq; auto. lia.
    + exfalso. assert (Hin : In (set_side (get_side (d_part d) (p_x p)) p) l) by (unfold l, assign_side; apply (in_map (fun p => set_side (get_side (d_part d) (p_x p)) p)); exact Hp).
      pose proof (find_none _ _ Ef _ Hin) as K. cbn in K. rewrite Z.eqb_refl, Ha in K. discriminate.
  - rewrite Eids. pose proof (places_spec (repeat (s_far s) (s_dims s)) (d_ids d) l) as P. revert F P.
    generalize (fold_left (fun l0 id => place id (repeat (s_far s) (s_dims s)) l0) (d_ids d) l) as r. generalize (s_parts s) as l0, l. clear.
    intros l0 l r F. revert r. induction F as [|p q l0 l H F IH]; intros r P; inversion P as [|? p' ? r' Hp P' E1 E2]; subst; constructor; [|now apply IH].
    destruct H as (A1 & A2 & A3 & A4 & A5 & A6), Hp as (B1 & B2 & B3 & B4 & B5 & B6).
    split; [congruence|]. split; [congruence|]. split; [congruence|]. split; [congruence|]. split; [congruence|]. rewrite B6, A1, A4, A5. reflexivity.
Qed.
Print Assumptions C47_start_partial.

(* After a window with the door closed the numbers are recorded with no change, and the door is opened: its particles are far away. *)
Theorem C47_reopens_partial d s : due d s -> d_open d = false -> exists d' s' El Er,
  pre_forces (d, s) = Some (d', s') /\ d_open d' = true /\ d_closed d' = S (d_closed d) /\ d_opened d' = d_opened d /\ s_time s' = s_time s /\ d_last d' = s_time s /\
  El == kinetic (fun p => mobile p && on_left (d_part d) p) (s_parts s) /\ Er == kinetic (fun p => mobile p && negb (on_left (d_part d) p)) (s_parts s) /\
  d_current d' = (s_time s, 0%Z, 0) :: d_current d /\
  d_sides d' = (s_time s, El, Er, number (fun p => mobile p && on_left (d_part d) p) (s_parts s), number (fun p => mobile p && negb (on_left (d_part d) p)) (s_parts s)) :: d_sides d /\
  d_ck d' = map (fun p => (p_x p, p_v p)) (s_parts s) /\
  Forall2 (fun p p' => p_id p' = p_id p /\ p_v p' = p_v p /\ p_im p' = p_im p /\ p_side p' = p_side p /\ p_alive p' = p_alive p /\
     p_x p' = if existsb (Z.eqb (p_id p)) (d_ids d) && p_alive p then repeat (s_far s) (s_dims s) else p_x p) (s_parts s) (s_parts s').
Proof.
  intros Hd Ho. unfold pre_forces. rewrite (proj1 (due_spec d s) Hd), Ho. cbn [set_check set_counts add_sides add_data open_door d_ids].
  destruct (C47_counts_partial (d_part d) (s_parts s)) as (I1 & I2 & I3 & I4 & I5 & I6 & I7 & I8 & _).
  eexists _, _, _, _. split; [reflexivity|]. cbn [open_door set_check set_counts add_sides add_data set_door d_open d_closed d_opened d_last d_current d_sides d_ck d_ids with_parts s_time s_parts s_far s_dims d_El d_Er d_Nl d_Nr].
  split; [reflexivity|]. split; [reflexivity|]. split; [reflexivity|]. split; [reflexivity|]. split; [reflexivity|]. split; [exact I7|]. split; [exact I8|]. split; [reflexivity|].
  split; [rewrite <- I5, <- I6; reflexivity|]. split; [reflexivity|].
  set (far := repeat (s_far s) (s_dims s)).
  pose proof (places_spec far (update_ids (s_parts s) (d_ids d)) (s_parts s)) as G.
  eapply Forall2_with_in; [|exact G]. intros p p' Hp (A1 & A2 & A3 & A4 & A5 & A6). rewrite (update_same _ _ _ Hp) in A6. tauto.
Qed.
Print Assumptions C47_reopens_partial.

(* In a sequence of kept windows, whatever moves and is reordered in between, the number on the left falls by just what is recorded as
   the current of particles (and the number on the right grows by it). *)
Theorem C47_flow_partial d s d1 s1 s2 l2 d2 s3 : due d s -> d_open d = true -> (0 <= d_rule d <= 2)%Z -> pre_forces (d, s) = Some (d1, s1) -> d_open d1 = true ->
  in_place (s_parts s1) l2 -> Permutation l2 (s_parts s2) -> due d1 s2 -> pre_forces (d1, s2) = Some (d2, s3) -> d_open d2 = true ->
  exists t1 t2 El1 Er1 El2 Er2 Nl1 Nr1 Nl2 Nr2 dn de rest rest',
    d_sides d2 = (t2, El2, Er2, Nl2, Nr2) :: (t1, El1, Er1, Nl1, Nr1) :: rest /\ d_current d2 = (t2, dn, de) :: rest' /\
    (Nl2 = Nl1 - dn)%Z /\ (Nr2 = Nr1 + dn)%Z.
Proof.
  intros Hd Ho Hr H1 Ho1 Hip Hperm Hd1 H2 Ho2.
  destruct (C47_rule_partial _ _ _ _ Hd Ho Hr H1) as (_ & K & _). destruct (K Ho1) as (_ & _ & _ & _ & _ & _ & Hf & de & El & Er & _ & _ & _ & _ & Es). clear K.
  assert (E1 : d_part d1 = d_part d /\ d_rule d1 = d_rule d).
  { unfold pre_forces in H1. rewrite (proj1 (due_spec d s) Hd), Ho in H1. destruct (should_door_open _ _).
    - injection H1 as <- <-. split; reflexivity.
    - unfold revert in H1. destruct (_ =? _)%nat; [|discriminate]. unfold close_door in H1. destruct (put_back _ _ _); [|discriminate]. injection H1 as <- <-. split; reflexivity. }
  destruct E1 as [Ep Er1]. rewrite <- Er1 in Hr.
  destruct (C47_rule_partial _ _ _ _ Hd1 Ho1 Hr H2) as (_ & K & _). destruct (K Ho2) as (_ & _ & _ & _ & _ & _ & _ & de2 & El2 & Er2 & _ & _ & _ & Ec2 & Es2). clear K.
  rewrite Es in Es2. eexists _, _, _, _, _, _, _, _, _, _, _, _, _, _. split; [exact Es2|]. split; [exact Ec2|].
  rewrite Ep. set (c := d_part d) in *.
  assert (P : forall f, number f (s_parts s2) = number f l2) by (intros f; symmetry; now apply number_perm). rewrite !P.
  assert (Hs1 : sided l2 /\ number (fun p => mobile p && from_left p) l2 = number (fun p => mobile p && on_left c p) (s_parts s) /\ number mobile l2 = number mobile (s_parts s)).
  { clear - Hf Hip. revert l2 Hip. induction Hf as [|p p' l l' Hp Hl IH]; intros l2 Hip; inversion Hip as [|? q ? l3 Hq Hip' E1 E2]; subst.
    - split; [intros q []|]. split; reflexivity.
    - destruct (IH l3 Hip') as (I1 & I2 & I3). destruct Hp as (A1 & _ & _ & _ & A5 & _). destruct Hq as (_ & B2 & B3 & _). split; [|split].
      + intros r [<- |Hr]; [|now apply I1]. rewrite B3, A1. destruct (on_left c p); tauto.
      + rewrite !number_cons, I2. unfold from_left, mobile. rewrite B3, A1, B2, A5. destruct (on_left c p); reflexivity.
      + rewrite !number_cons, I3. unfold mobile. rewrite B2, A5. reflexivity. }
  destruct Hs1 as (S1 & S2 & S3). pose proof (sided_split c l2 S1) as G. pose proof (number_split mobile (on_left c) l2) as G1. pose proof (number_split mobile (on_left c) (s_parts s)) as G2.
  split; lia.
Qed.
Print Assumptions C47_flow_partial.

(* The settings ignore values that make no sense. *)
Theorem C47_settings d t k : d_tau (setTau t d) = (if Qle_bool t 0 then d_tau d else t) /\ d_rule (setDemon k d) = (if (k <? 0)%Z || (2 <? k)%Z then d_rule d else k) /\
  (0 < d_tau d -> 0 < d_tau (setTau t d)) /\ ((0 <= d_rule d <= 2)%Z -> (0 <= d_rule (setDemon k d) <= 2)%Z).
Proof.
  unfold setTau, setDemon. split; [|split; [|split]].
  - destruct (Qle_bool t 0); reflexivity.
  - destruct (k <? 0)%Z eqn:A, (2 <? k)%Z eqn:B, (0 <=? k)%Z eqn:C, (k <=? 2)%Z eqn:D; cbn; try reflexivity; lia.
  - intros H. destruct (Qle_bool t 0) eqn:E; [exact H|]. cbn. apply Qnot_le_lt. rewrite <- Qle_bool_iff. congruence.
  - intros H. destruct (_ && _)%bool eqn:E; [|exact H]. cbn. lia.
Qed.
Print Assumptions C47_settings.

(* ---------- what does not hold ---------- *)
Definition ball (id : Z) (x v : Q) (side : Z) : part := mkP id [x] [v] 1 side true.
Definition plate (id : Z) (x : Q) : part := mkP id [x] [0] 0 0 true.
(* two balls left and right of the partition at 0, the door is particle 9 *)
Definition room : sys := mkS 0 10 1 [ball 1 (-1) 1 0; ball 2 1 (-1) 0; plate 9 0].
Definition ready : demon * sys := pre_integrate (new_demon [9%Z] 0 0, room).
Definition moved (t x1 x2 : Q) (s : sys) : sys := mkS t (s_far s) (s_dims s) (map (fun p => if (p_id p =? 1)%Z then set_x [x1] p else if (p_id p =? 2)%Z then set_x [x2] p else p) (s_parts s)).

(* The concrete run of the examples: ball 1 crosses to the right (kept), then ball 2 to the left (undone, closed), then nothing (reopened). *)
Definition after (d : demon) (s : sys) : demon * sys := match pre_forces (d, s) with Some ds => ds | None => (d, s) end.
Definition st1 := Eval vm_compute in after (fst ready) (moved (1#5) 2 3 (snd ready)).
Definition st2 := Eval vm_compute in after (fst st1) (moved (1#2) 2 (-3) (snd st1)).
Definition st3 := Eval vm_compute in after (fst st2) (moved (2#3) 2 4 (snd st2)).
Definition st4 := Eval vm_compute in after (fst st1) (moved (2#5) 4 5 (snd st1)).
Example C47_case :
  pre_forces (fst ready, moved (1#5) 2 3 (snd ready)) = Some st1 /\ d_open (fst st1) = true /\ map (fun '(_, n, _) => n) (d_current (fst st1)) = [1%Z] /\
  pre_forces (fst st1, moved (1#2) 2 (-3) (snd st1)) = Some st2 /\ d_open (fst st2) = false /\ s_time (snd st2) = (1#5) /\ map p_x (s_parts (snd st2)) = [[2]; [3]; [0]] /\
  pre_forces (fst st2, moved (2#3) 2 4 (snd st2)) = Some st3 /\ d_open (fst st3) = true /\ map p_x (s_parts (snd st3)) = [[2]; [4]; [10]] /\
  d_opened (fst st3) = 1%nat /\ d_closed (fst st3) = 1%nat.
Proof. repeat match goal with |- _ /\ _ => split end; vm_compute; reflexivity. Qed.
Example C47_start_case : (forall id, In id (d_ids (new_demon [9%Z] 0 0)) -> exists p, In p (s_parts room) /\ p_id p = id /\ p_alive p = true) /\
  (forall p q, In p (s_parts room) -> In q (s_parts room) -> p_alive p = true -> p_alive q = true -> p_id p = p_id q -> p = q).
Proof.
  split.
  - intros id [<- |[]]. exists (plate 9 0). cbn. tauto.
  - intros p q [<- |[<- |[<- |[]]]] [<- |[<- |[<- |[]]]] _ _ E; try reflexivity; discriminate E.
Qed.
Lemma st1_run : demon_run 2 st1.
Proof.
  apply (run_step _ (fst ready, moved (1#5) 2 3 (snd ready))); [|vm_compute; reflexivity]. apply (run_env _ _ (snd ready)); [|vm_compute; reflexivity].
  rewrite <- surjective_pairing. eapply run_start; [reflexivity|vm_compute; reflexivity].
Qed.
Example C47_run_case : demon_run 2 st1 /\ d_open (fst st1) = true /\ length (d_sides (fst st1)) = 1%nat /\ due (fst ready) (moved (1#5) 2 3 (snd ready)) /\
  due (fst st1) (moved (1#2) 2 (-3) (snd st1)) /\ ~ due (fst st1) (moved (1#4) 2 3 (snd st1)).
Proof.
  split; [exact st1_run|]. split; [reflexivity|]. split; [reflexivity|]. split; [|split].
  - split; vm_compute; intuition discriminate.
  - split; vm_compute; intuition discriminate.
  - intros [H _]. vm_compute in H. now apply H.
Qed.
Example C47_flow_case : pre_forces (fst st1, moved (2#5) 4 5 (snd st1)) = Some st4 /\ due (fst st1) (moved (2#5) 4 5 (snd st1)) /\ d_open (fst st4) = true /\
  in_place (s_parts (snd st1)) (s_parts (moved (2#5) 4 5 (snd st1))).
Proof. split; [vm_compute; reflexivity|]. split; [split; vm_compute; intuition discriminate|]. split; [reflexivity|]. repeat constructor. Qed.

Definition st5 := Eval vm_compute in after (fst st1) (mkS 1 10 1 [ball 2 (-5) (-1) 1; ball 1 2 1 1; mkP 9 [10] [0] 0 1 true]).
(* The way back goes by place: if the same particles are reordered in between, they get each other's positions. *)
Theorem C47_reorder_refuted : exists d s l2 d' s', demon_run 2 (d, s) /\ d_open d = true /\ due d (mkS 1 10 1 l2) /\
  Permutation l2 (map (fun p => if (p_id p =? 2)%Z then set_x [-5] p else p) (s_parts s)) /\
  pre_forces (d, mkS 1 10 1 l2) = Some (d', s') /\ d_open d' = false /\
  position_of (s_parts s) 1 = [2] /\ position_of (s_parts s') 1 = [3] /\ position_of (s_parts s) 2 = [3] /\ position_of (s_parts s') 2 = [2].
Proof.
  exists (fst st1), (snd st1), [ball 2 (-5) (-1) 1; ball 1 2 1 1; mkP 9 [10] [0] 0 1 true], (fst st5), (snd st5).
  rewrite <- !surjective_pairing. split; [exact st1_run|]. split; [reflexivity|]. split; [split; vm_compute; intuition discriminate|].
  split; [vm_compute; apply perm_swap|]. split; [vm_compute; reflexivity|]. repeat match goal with |- _ /\ _ => split end; vm_compute; reflexivity.
Qed.
Print Assumptions C47_reorder_refuted.

(* When a run starts with the door open (as every run may end), the far away places are taken for the place of the door. *)
Theorem C47_second_run_refuted : exists ds, d_pos (fst (pre_integrate ds)) = [[0]] /\ d_pos (fst (pre_integrate (pre_integrate ds))) = [[10]].
Proof. exists (new_demon [9%Z] 0 0, room). split; vm_compute; reflexivity. Qed.
Print Assumptions C47_second_run_refuted.

(* A particle that was removed but still has its slot is counted. *)
Theorem C47_dead_counted_refuted : exists c l, number (fun p => mobile p && p_alive p) l = 0%Z /\ c_Nl (count_changes c l) = 1%Z.
Proof. exists 0, [mkP (-1) [-1] [0] 1 0 false]. split; reflexivity. Qed.
Print Assumptions C47_dead_counted_refuted.

(* If a particle of the door is gone, the others are put to wrong places. *)
Theorem C47_lost_door_refuted : exists d s d' s', d_ids d = [8%Z; 9%Z] /\ d_pos d = [[0]; [1]] /\ close_door (d, s) = Some (d', s') /\
  position_of (s_parts s) 9 = [1] /\ position_of (s_parts s') 9 = [0].
Proof.
  exists (fst (pre_integrate (new_demon [8%Z; 9%Z] 0 0, mkS 0 10 1 [plate 8 0; plate 9 1]))), (mkS 0 10 1 [plate 9 1]). eexists _, _.
  split; [vm_compute; reflexivity|]. split; [vm_compute; reflexivity|]. split; [vm_compute; reflexivity|]. split; vm_compute; reflexivity.
Qed.
Print Assumptions C47_lost_door_refuted.
