From Coq Require Import QArith ZArith Lia Ascii String List Bool Sorted.
From Verif Require Import Lib Model_Geometry Model_Save Spec_Save Proofs_Save.
Import ListNotations.
Local Open Scope list_scope.
Local Notation length := List.length.

Definition picked (sel : nat -> bool) (b : bounds) (n : nat) (o : slot) : bool := negb ((o_type o <? 0)%Z || negb (contains b (o_x o)) || negb (sel n)).
Fixpoint pick (sel : nat -> bool) (b : bounds) (n : nat) (os : list slot) : list nat :=
  match os with [] => [] | o :: t => if picked sel b n o then n :: pick sel b (S n) t else pick sel b (S n) t end.
Lemma pick_ge sel b os : forall n k, In k (pick sel b n os) -> (n <= k)%nat.
Proof. induction os as [|o t IH]; intros n k H; cbn [pick] in H; [destruct H|]. destruct (picked sel b n o); [destruct H as [<- |H]; [lia|]|]; apply IH in H; lia. Qed.
Lemma pick_sorted sel b os : forall n, StronglySorted lt (pick sel b n os).
Proof.
  induction os as [|o t IH]; intros n; cbn [pick]; [constructor|]. destruct (picked sel b n o); [|apply IH]. constructor; [apply IH|]. apply Forall_forall. intros k Hk.
  apply pick_ge in Hk. lia.
Qed.
Lemma pick_in sel b os : forall n k, In k (pick sel b n os) <-> exists o, (n <= k)%nat /\ nth_error os (k - n) = Some o /\ picked sel b k o = true.
Proof.
  induction os as [|o t IH]; intros n k; cbn [pick].
  - split; [intros []|]. intros (o & _ & E & _). destruct (k - n)%nat; discriminate.
  - transitivity ((k = n /\ picked sel b n o = true) \/ In k (pick sel b (S n) t)).
    + destruct (picked sel b n o); cbn [In]; intuition congruence.
    + rewrite IH. split.
      * intros [[-> H]|(o' & H1 & H2 & H3)]; [exists o; rewrite Nat.sub_diag; repeat split; auto|]. exists o'. split; [lia|]. split; [|exact H3].
        replace (k - n)%nat with (S (k - S n)) by lia. exact H2.
      * intros (o' & H1 & H2 & H3). destruct (k - n)%nat as [|j] eqn:E.
        -- left. assert (k = n) by lia. subst k. cbn in H2. injection H2 as <-. now split.
        -- right. exists o'. split; [lia|]. replace (k - S n)%nat with j by lia. now split.
Qed.
Lemma contains_spec b : forall x, length x = length b -> (contains b x = true <-> Forall2 (fun m xd => fst m <= xd /\ xd < snd m) b x).
Proof.
  induction b as [|[mn mx] b IH]; intros [|a x] L; try discriminate; cbn [contains]; [split; [constructor|reflexivity]|].
  destruct (Qltb_spec a mn) as [E1|E1]; cbn [orb].
  - split; [discriminate|]. intros H. inversion H as [|? ? ? ? [A B]]; subst. cbn in A. exfalso. apply Qle_not_lt in A. auto.
  - destruct (Qle_bool mx a) eqn:E2.
    + split; [discriminate|]. intros H. inversion H as [|? ? ? ? [A B]]; subst. cbn in B. apply Qle_bool_iff in E2. exfalso. apply Qle_not_lt in E2. auto.
    + rewrite IH by (cbn in L; lia). split.
      * intros H. constructor; [|exact H]. cbn. split.
        -- now apply Qnot_lt_le.
        -- apply Qnot_le_lt. intros X. apply Qle_bool_iff in X. congruence.
      * intros H. now inversion H.
Qed.

Lemma write_at_end r data w : length r = w -> write_at (length data) r (data ++ repeat 0 w) = Some (data ++ r).
Proof.
  intros L. unfold write_at. rewrite app_length, repeat_length, L, Nat.leb_refl. rewrite firstn_app, Nat.sub_diag, firstn_all. cbn [firstn]. rewrite app_nil_r.
  rewrite skipn_all2 by (rewrite app_length, repeat_length; lia). now rewrite app_nil_r.
Qed.
Lemma fill_spec mag rank sel d os : forall n data, (forall o, In o os -> length (row mag rank d o) = d_width d) ->
  fill mag rank sel d n os (length data) data = Some (data ++ flat_map (fun k => match nth_error os (k - n) with Some o => row mag rank d o | None => [] end) (pick sel (d_bounds d) n os)).
Proof.
  induction os as [|o t IH]; intros n data H; [cbn; now rewrite app_nil_r|]. cbn [fill pick]. unfold picked at 1.
  assert (F : flat_map (fun k => match nth_error (o :: t) (k - n) with Some o => row mag rank d o | None => [] end) (pick sel (d_bounds d) (S n) t) =
              flat_map (fun k => match nth_error t (k - S n) with Some o => row mag rank d o | None => [] end) (pick sel (d_bounds d) (S n) t)).
  { rewrite !flat_map_concat_map. f_equal. apply map_ext_in. intros k Hk. apply pick_ge in Hk. replace (k - n)%nat with (S (k - S n)) by lia. reflexivity. }
  destruct ((o_type o <? 0)%Z || negb (contains (d_bounds d) (o_x o)) || negb (sel n)); cbn [negb].
  - rewrite IH by (intros; apply H; now right). now rewrite F.
  - rewrite write_at_end by (apply H; now left). rewrite <- app_length. rewrite IH by (intros; apply H; now right). cbn [flat_map]. rewrite F, Nat.sub_diag. cbn [nth_error]. now rewrite app_assoc.
Qed.

Lemma firstn_full {A} (l : list A) n : length l = n -> firstn n l = l.
Proof. intros <-. apply firstn_all. Qed.
(* the row of a slot, by names *)
Definition named_row (getV getS getI : string -> Z) (mag : list Q -> Q) (rank : Z) (v m s i : list string) (o : slot) : list Q :=
  flat_map (fun n => nth (Z.to_nat (getV n)) (o_vec o) []) v ++ map (fun n => mag (nth (Z.to_nat (getV n)) (o_vec o) [])) m
  ++ map (fun n => nth (Z.to_nat (getS n)) (o_sc o) 0) s ++ map (fun n => inject_Z (nth (Z.to_nat (getI n)) (o_int o) 0%Z)) i ++ [inject_Z rank].
Lemma flat_const {A B} (f : A -> list B) w l : (forall a, In a l -> length (f a) = w) -> length (flat_map f l) = (length l * w)%nat.
Proof. induction l as [|a l IH]; intros H; [reflexivity|]. cbn [flat_map length]. rewrite app_length, (H a (or_introl eq_refl)), IH by (intros; apply H; now right). lia. Qed.
Lemma flat_nth {A B} (f : A -> list B) w l d : (forall a, In a l -> length (f a) = w) -> forall j a c, nth_error l j = Some a -> (c < w)%nat -> nth (j * w + c) (flat_map f l) d = nth c (f a) d.
Proof.
  induction l as [|b l IH]; intros H j a c E Hc; [destruct j; discriminate|]. cbn [flat_map]. pose proof (H b (or_introl eq_refl)) as Lb. destruct j as [|j]; cbn in E.
  - injection E as <-. cbn [Nat.mul Nat.add]. apply app_nth1. lia.
  - rewrite app_nth2 by (cbn; lia). rewrite Lb. replace (S j * w + c - w)%nat with (j * w + c)%nat by lia. apply IH; auto. intros; apply H; now right.
Qed.
Lemma flat_block {A B} (f : A -> list B) w l : (forall a, In a l -> length (f a) = w) -> forall k a, nth_error l k = Some a -> firstn w (skipn (k * w) (flat_map f l)) = f a.
Proof.
  induction l as [|b l IH]; intros H k a E; [destruct k; discriminate|]. cbn [flat_map]. pose proof (H b (or_introl eq_refl)) as Lb. destruct k as [|k]; cbn in E.
  - injection E as <-. cbn [Nat.mul skipn]. rewrite firstn_app, Lb, Nat.sub_diag. cbn [firstn]. rewrite app_nil_r. now apply firstn_full.
  - rewrite skipn_app, Lb. rewrite skipn_all2 by (rewrite Lb; cbn; lia). cbn [app]. replace (S k * w - w)%nat with (k * w)%nat by lia. apply IH; auto. intros; apply H; now right.
Qed.

Section RUN.
Variables (getV getS getI : string -> Z) (simb gather : bounds) (dims nt : nat) (v m s i : list string).
Definition sd : sdata := pos_pre getV getS getI simb gather dims nt (v, m, s, i) sdata0.
Definition kV := filter (fun n => (-1 <? getV n)%Z) v.
Definition kM := filter (fun n => (-1 <? getV n)%Z) m.
Definition kS := filter (fun n => (-1 <? getS n)%Z) s.
Definition kI := filter (fun n => (-1 <? getI n)%Z) i.
Lemma sd_eq : (0 < nt)%nat -> sd = mkSD kV kM kS kI (map getV kV) (map getV kM) (map getS kS) (map getI kI) gather (length kV * dims + length kM + length kS + length kI + 1) dims nt.
Proof. intros H. unfold sd, pos_pre, set_boundary, initialize, set_entries, sdata0. cbn. destruct nt; [lia|]. reflexivity. Qed.
Variables (mag : list Q -> Q) (rank : Z).
Definition full (o : slot) : Prop := forall n, (-1 < getV n)%Z -> length (nth (Z.to_nat (getV n)) (o_vec o) []) = dims.
Lemma row_named o : (0 < nt)%nat -> full o -> row mag rank sd o = named_row getV getS getI mag rank kV kM kS kI o.
Proof.
  intros Hn Hf. rewrite sd_eq by exact Hn. unfold row, named_row. cbn [d_dims d_vp d_mp d_sp d_ip]. rewrite !map_map, !flat_map_concat_map, map_map. f_equal. f_equal.
  apply map_ext_in. intros n Hi. apply filter_In in Hi as [_ Hi]. apply Z.ltb_lt in Hi. apply firstn_full, Hf, Hi.
Qed.
Lemma named_len o : full o -> length (named_row getV getS getI mag rank kV kM kS kI o) = (length kV * dims + length kM + length kS + length kI + 1)%nat.
Proof.
  intros Hf. unfold named_row. rewrite !app_length, !map_length. cbn [length]. rewrite (flat_const _ dims); [lia|]. intros n Hi. apply filter_In in Hi as [_ Hi]. apply Z.ltb_lt in Hi. now apply Hf.
Qed.
Lemma store_spec sel number os : (0 < nt)%nat -> (forall o, In o os -> full o) -> (number = 0%nat -> forall o, In o os -> (o_type o < 0)%Z) ->
  store mag rank sel sd number os = Some (flat_map (fun k => match nth_error os k with Some o => named_row getV getS getI mag rank kV kM kS kI o | None => [] end) (pick sel gather 0 os)).
Proof.
  intros Hn Hf Hz. unfold store. assert (W : d_width sd = (length kV * dims + length kM + length kS + length kI + 1)%nat) by (rewrite sd_eq by exact Hn; reflexivity).
  rewrite W. replace ((length kV * dims + length kM + length kS + length kI + 1 =? 0)%nat) with false by (symmetry; apply Nat.eqb_neq; lia). cbn [orb].
  assert (Bd : d_bounds sd = gather) by (rewrite sd_eq by exact Hn; reflexivity). destruct (Nat.eqb_spec number 0) as [E|E].
  - f_equal. assert (X : pick sel gather 0 os = []); [|now rewrite X]. specialize (Hz E). revert Hz. clear. generalize 0%nat. induction os as [|o t IH]; intros n H; [reflexivity|].
    cbn [pick]. unfold picked. replace (o_type o <? 0)%Z with true by (symmetry; apply Z.ltb_lt, H; now left). cbn [orb negb]. apply IH. intros; apply H; now right.
  - change 0%nat with (length (@nil Q)) at 2. rewrite fill_spec by (intros o Ho; rewrite row_named, named_len, W; auto). cbn [app]. rewrite Bd. f_equal.
    rewrite !flat_map_concat_map. f_equal. apply map_ext_in. intros k Hk. rewrite Nat.sub_0_r. destruct (nth_error os k) eqn:Ek; [|reflexivity]. apply row_named; [exact Hn|]. apply Hf. eapply nth_error_In; eauto.
Qed.
End RUN.

(* places *)
Lemma find_name_spec key l : forall a, In key l -> exists j, find_name a key l = (a + Z.of_nat j)%Z /\ nth_error l j = Some key.
Proof.
  induction l as [|b l IH]; intros a H; [destruct H|]. cbn [find_name]. destruct (String.eqb_spec key b) as [-> |E]; [exists 0%nat; split; [lia|reflexivity]|].
  destruct H as [H|H]; [congruence|]. destruct (IH (a + 1)%Z H) as (j & F & G). exists (S j). rewrite F. split; [lia|exact G].
Qed.
Lemma find_name_not key l : forall a, ~ In key l -> find_name a key l = (-1)%Z.
Proof. induction l as [|b l IH]; intros a H; [reflexivity|]. cbn [find_name]. destruct (String.eqb_spec key b) as [-> |E]; [exfalso; apply H; now left|]. apply IH. intros X. apply H. now right. Qed.
