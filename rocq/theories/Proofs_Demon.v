From Coq Require Import QArith List Bool ZArith Lia Lqa.
From Verif Require Import Model_Demon Spec_Demon.
Import ListNotations.
Local Open Scope Q_scope.

Lemma number_cons f p l : number f (p :: l) = ((if f p then 1 else 0) + number f l)%Z.
Proof. unfold number. cbn. destruct (f p); cbn [length]; lia. Qed.
Lemma kinetic_cons f p l : kinetic f (p :: l) == (if f p then energy p else 0) + kinetic f l.
Proof. unfold kinetic. cbn [filter]. destruct (f p); cbn [fold_right]; [reflexivity|ring]. Qed.
Lemma number_app f l l' : number f (l ++ l') = (number f l + number f l')%Z.
Proof. unfold number. rewrite filter_app, app_length. lia. Qed.

Lemma side_val c p : get_side c (p_x p) = if on_left c p then 0%Z else 1%Z.
Proof. reflexivity. Qed.

Lemma count_gen c l : forall a, let r := fold_left (count_one c) l a in
  c_nl r = (c_nl a + number (went_right c) l)%Z /\ c_nr r = (c_nr a + number (went_left c) l)%Z /\
  c_el r == c_el a + kinetic (went_right c) l /\ c_er r == c_er a + kinetic (went_left c) l /\
  c_Nl r = (c_Nl a + number (fun p => mobile p && on_left c p) l)%Z /\ c_Nr r = (c_Nr a + number (fun p => mobile p && negb (on_left c p)) l)%Z /\
  c_El r == c_El a + kinetic (fun p => mobile p && on_left c p) l /\ c_Er r == c_Er a + kinetic (fun p => mobile p && negb (on_left c p)) l.
Proof.
  induction l as [|p l IH]; intros a; cbn [fold_left].
  - unfold number, kinetic. cbn [filter length fold_right Z.of_nat]. repeat match goal with |- _ /\ _ => split end; first [lia | ring].
  - specialize (IH (count_one c a p)). cbv zeta in *. rewrite !number_cons, !kinetic_cons.
    destruct IH as (I1 & I2 & I3 & I4 & I5 & I6 & I7 & I8).
    rewrite I1, I2, I3, I4, I5, I6, I7, I8. clear.
    unfold count_one, went_right, went_left, mobile, from_left, from_right. rewrite side_val. destruct (Qeq_bool (p_im p) 0); cbn [negb andb].
    + repeat match goal with |- _ /\ _ => split end; first [lia | ring].
    + destruct (on_left c p); cbn [negb andb].
      * rewrite (Z.eqb_sym 0 (p_side p)). destruct (p_side p =? 0)%Z; cbn [negb andb Z.eqb c_nl c_nr c_el c_er c_Nl c_Nr c_El c_Er];
          repeat match goal with |- _ /\ _ => split end; first [lia | ring].
      * rewrite (Z.eqb_sym 1 (p_side p)). destruct (p_side p =? 1)%Z; cbn [negb andb Z.eqb Pos.eqb c_nl c_nr c_el c_er c_Nl c_Nr c_El c_Er];
          repeat match goal with |- _ /\ _ => split end; first [lia | ring].
Qed.

Lemma sided_split c l : sided l ->
  (number (fun p => mobile p && on_left c p) l = number (fun p => mobile p && from_left p) l - number (went_right c) l + number (went_left c) l)%Z.
Proof.
  induction l as [|p l IH]; intros Hs; [reflexivity|]. rewrite !number_cons. rewrite IH by (intros q Hq; apply Hs; now right).
  unfold went_right, went_left, from_left, from_right. destruct (Hs p (or_introl eq_refl)) as [E|E]; rewrite E; destruct (mobile p), (on_left c p); cbn [andb negb Z.eqb Pos.eqb]; lia.
Qed.

Lemma number_split f g l : (number (fun p => f p && g p) l + number (fun p => f p && negb (g p)) l = number f l)%Z.
Proof. induction l as [|p l IH]; [reflexivity|]. rewrite !number_cons, <- IH. destruct (f p), (g p); cbn [andb negb]; lia. Qed.
Lemma kinetic_split f g l : kinetic (fun p => f p && g p) l + kinetic (fun p => f p && negb (g p)) l == kinetic f l.
Proof. induction l as [|p l IH]; [reflexivity|]. rewrite !kinetic_cons, <- IH. destruct (f p), (g p); cbn [andb negb]; ring. Qed.

Lemma number_map f g l : (forall p, f (g p) = f p) -> number f (map g l) = number f l.
Proof. intros H. induction l as [|p l IH]; [reflexivity|]. cbn [map]. rewrite !number_cons, H, IH. reflexivity. Qed.
Lemma mobile_assign c l : number mobile (assign_side c l) = number mobile l.
Proof. apply number_map. reflexivity. Qed.
Lemma mobile_place id a l : number mobile (place id a l) = number mobile l.
Proof. apply number_map. intros p. destruct (_ && _); reflexivity. Qed.
Lemma mobile_restore ck : forall l, number mobile (restore ck l) = number mobile l.
Proof. induction ck as [|[x v] ck IH]; intros [|p l]; cbn [restore]; try reflexivity. rewrite !number_cons, IH. reflexivity. Qed.
Lemma mobile_places a ids : forall l, number mobile (fold_left (fun l id => place id a l) ids l) = number mobile l.
Proof. induction ids as [|i ids IH]; intros l; cbn [fold_left]; [reflexivity|]. rewrite IH. apply mobile_place. Qed.
Lemma mobile_put ids : forall pos l l', put_back ids pos l = Some l' -> number mobile l' = number mobile l.
Proof.
  induction ids as [|i ids IH]; intros [|a pos] l l' H; cbn in H; try discriminate; try (injection H as <-; reflexivity).
  apply IH in H. rewrite H. apply mobile_place.
Qed.

(* the invariant of a run *)
Definition record_ok (n : Z) (r : Q * Q * Q * Z * Z) : Prop := let '(_, _, _, nl, nr) := r in (nl + nr = n)%Z.
Definition run_inv (n : Z) (ds : demon * sys) : Prop :=
  let (d, s) := ds in number mobile (s_parts s) = n /\ Forall (record_ok n) (d_sides d) /\
  map (fun r => fst (fst (fst (fst r)))) (d_sides d) = map (fun r => fst (fst r)) (d_current d) /\
  length (d_sides d) = (d_opened d + d_closed d)%nat /\ (length (d_ids d) <= length (d_pos d))%nat.

Lemma update_len l ids : (length (update_ids l ids) <= length ids)%nat.
Proof. unfold update_ids. induction ids as [|a ids IH]; cbn; [lia|]. destruct (present l a); cbn; lia. Qed.

Lemma count_total c l : (c_Nl (count_changes c l) + c_Nr (count_changes c l) = number mobile l)%Z.
Proof.
  destruct (count_gen c l (mkC 0 0 0 0 0 0 0 0)) as (_ & _ & _ & _ & I5 & I6 & _). cbv zeta in *. unfold count_changes. rewrite I5, I6. cbn [c_Nl c_Nr].
  rewrite <- (number_split mobile (on_left c) l). lia.
Qed.

Lemma run_invariant n ds : demon_run n ds -> run_inv n ds.
Proof.
  induction 1 as [d s ids c t -> Hn|d s s' H IH Hn|d s t H IH|d s k H IH|[d s] ds' H IH E].
  - unfold pre_integrate, open_door, run_inv. cbn [s_parts with_parts d_sides d_current d_opened d_closed d_ids d_pos set_door new_demon d_part map s_dims s_far].
    split; [rewrite mobile_places, mobile_assign; exact Hn|]. split; [constructor|]. split; [reflexivity|]. split; [reflexivity|].
    rewrite app_length, map_length. etransitivity; [apply update_len|]. lia.
  - cbn in *. tauto.
  - unfold setTau. destruct (Qle_bool t 0); exact IH.
  - unfold setDemon. destruct (_ && _)%bool; exact IH.
  - unfold run_inv in IH. destruct IH as (I1 & I2 & I3 & I4 & I5). unfold pre_forces in E. destruct (Qle_bool _ _ && negb _) eqn:Edue.
    + destruct (d_open d) eqn:Eo.
      * destruct (should_door_open _ _) eqn:Es.
        -- injection E as <-. unfold run_inv. cbn. split; [rewrite mobile_assign; exact I1|]. split; [|split; [|split]].
           ++ constructor; [|exact I2]. cbn. rewrite count_total. exact I1.
           ++ now rewrite I3.
           ++ lia.
           ++ exact I5.
        -- unfold revert in E. destruct (_ =? _)%nat eqn:El; [|discriminate]. unfold close_door in E. cbn [s_parts with_time with_parts d_ids set_counts d_pos] in E.
           destruct (put_back _ _ _) as [l|] eqn:Ep; [|discriminate]. injection E as <-. unfold run_inv. cbn [s_parts with_parts d_sides d_current d_opened d_closed d_ids d_pos set_door set_counts].
           split; [rewrite (mobile_put _ _ _ _ Ep), mobile_restore; exact I1|]. split; [exact I2|]. split; [exact I3|]. split; [exact I4|].
           etransitivity; [apply update_len|exact I5].
      * injection E as <-. unfold run_inv. cbn. split; [rewrite mobile_places; exact I1|]. split; [|split; [|split]].
        -- constructor; [|exact I2]. cbn. rewrite count_total. exact I1.
        -- now rewrite I3.
        -- lia.
        -- etransitivity; [apply update_len|exact I5].
    + destruct (d_just d); injection E as <-; unfold run_inv; cbn; [|tauto]. rewrite mobile_assign. tauto.
Qed.

(* ---------- closing ---------- *)
Lemma put_back_some ids : forall pos l, (length ids <= length pos)%nat -> exists l', put_back ids pos l = Some l'.
Proof.
  induction ids as [|i ids IH]; intros [|a pos] l H; cbn in *; [eauto|eauto|lia|]. apply IH. lia.
Qed.
Lemma put_back_nth ids : forall pos l l', put_back ids pos l = Some l' -> forall k p', nth_error l' k = Some p' ->
  exists p, nth_error l k = Some p /\ p_id p' = p_id p /\ p_v p' = p_v p /\ p_im p' = p_im p /\ p_side p' = p_side p /\ p_alive p' = p_alive p /\
    (~ (In (p_id p) ids /\ p_alive p = true) -> p_x p' = p_x p).
Proof.
  induction ids as [|i ids IH]; intros [|a pos] l l' H k p' Hk; cbn in H; try discriminate.
  - injection H as <-. exists p'. tauto.
  - injection H as <-. exists p'. tauto.
  - destruct (IH _ _ _ H k p' Hk) as (p1 & H1 & E1 & E2 & E3 & E4 & E5 & E6). unfold place in H1. rewrite nth_error_map in H1.
    destruct (nth_error l k) as [p|] eqn:Ek; [|discriminate]. cbn in H1. injection H1 as <-. exists p. split; [reflexivity|].
    destruct ((p_id p =? i)%Z && p_alive p) eqn:Em; cbn [set_x p_id p_v p_im p_side p_alive p_x] in *.
    + split; [exact E1|]. split; [exact E2|]. split; [exact E3|]. split; [exact E4|]. split; [exact E5|]. intros Hn. exfalso. apply Hn. apply andb_true_iff in Em as [A B]. split; [left; lia|exact B].
    + split; [exact E1|]. split; [exact E2|]. split; [exact E3|]. split; [exact E4|]. split; [exact E5|]. intros Hn. apply E6. intros [A B]. apply Hn. split; [now right|exact B].
Qed.
Lemma put_back_len ids : forall pos l l', put_back ids pos l = Some l' -> length l' = length l.
Proof.
  induction ids as [|i ids IH]; intros [|a pos] l l' H; cbn in H; try discriminate; try (injection H as <-; reflexivity). rewrite (IH _ _ _ H). unfold place. apply map_length.
Qed.
Lemma put_back_door ids : forall pos l l', NoDup ids -> put_back ids pos l = Some l' -> forall i id a, nth_error ids i = Some id -> nth_error pos i = Some a ->
  forall p', In p' l' -> p_id p' = id -> p_alive p' = true -> p_x p' = a.
Proof.
  induction ids as [|j ids IH]; intros [|b pos] l l' Hn H i id a Hi Ha p' Hin Hid Hal; cbn in H; try discriminate; try (destruct i; discriminate).
  inversion Hn; subst. destruct i as [|i].
  - cbn in Hi, Ha. injection Hi as Hi. injection Ha as Ha. subst. apply In_nth_error in Hin as [k Hk].
    destruct (put_back_nth _ _ _ _ H k p' Hk) as (p1 & H1 & E1 & _ & _ & _ & E5 & E6). unfold place in H1. rewrite nth_error_map in H1.
    destruct (nth_error l k) as [p|]; [|discriminate]. cbn in H1. injection H1 as <-.
    assert (Ei : p_id (if (p_id p =? p_id p')%Z && p_alive p then set_x a p else p) = p_id p) by (destruct (_ && _); reflexivity).
    assert (Ea : p_alive (if (p_id p =? p_id p')%Z && p_alive p then set_x a p else p) = p_alive p) by (destruct (_ && _); reflexivity).
    rewrite E6.
    + rewrite Ei in E1. rewrite Ea in E5. destruct ((p_id p =? p_id p')%Z && p_alive p) eqn:Em; [reflexivity|]. exfalso. rewrite E1, <- E5, Hal, Z.eqb_refl in Em. discriminate.
    + intros [A _]. apply H2. rewrite E1. exact A.
  - exact (IH _ _ _ H3 H i (p_id p') a Hi Ha p' Hin eq_refl Hal).
Qed.
Lemma restore_nth ck : forall l k p, length l = length ck -> nth_error l k = Some p ->
  exists x v, nth_error ck k = Some (x, v) /\ nth_error (restore ck l) k = Some (set_xv x v p).
Proof.
  induction ck as [|[x v] ck IH]; intros [|q l] k p Hl Hk; cbn in *; try discriminate; try (destruct k; discriminate).
  destruct k as [|k]; cbn in *; [injection Hk as ->; eauto|]. apply IH; [lia|exact Hk].
Qed.
Lemma restore_len ck : forall l, length (restore ck l) = length l.
Proof. induction ck as [|[x v] ck IH]; intros [|q l]; cbn; try reflexivity. now rewrite IH. Qed.
