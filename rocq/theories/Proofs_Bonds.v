From Verif Require Import Lib Model_Store Spec_Store Proofs_Store1 Proofs_Store2 Proofs_Store3 Proofs_Store4 Proofs_Store5
  Proofs_Store6 Model_Group Spec_Group Proofs_Group Model_Bonds Spec_Bonds.
From Coq Require Import Permutation ZifyBool ZifyNat.
Local Open Scope Z_scope.

(* ---------- the needs-remake flag stays set ---------- *)
Lemma add_loop_remake n ids : forall s s', add_loop n ids s = Some s' -> st_remake s' = st_remake s.
Proof.
  induction n as [|n IH]; intros s s' E; cbn [add_loop] in E; [injection E as <-; reflexivity|].
  unfold add_one in E. destruct (write _ _ _) as [m|]; [|discriminate]. apply IH in E. exact E.
Qed.
Lemma resize_remake k s : st_remake (resize k s) = st_remake s.
Proof. unfold resize. destruct (k <=? 0); reflexivity. Qed.
Lemma mark_remake id s s' : markForRemoval id s = Some s' -> st_remake s' = st_remake s.
Proof.
  unfold markForRemoval. destruct (id <? 0); [discriminate|]. destruct (nth_error _ _) as [p|]; [|discriminate].
  destruct (_ || _); [intros E; injection E as <-; reflexivity|]. destruct (write _ _ _) as [m|]; [|discriminate]. intros E; injection E as <-. reflexivity.
Qed.
Lemma mark_bad_remake n : forall i some s r s', mark_bad n i some s = Some (r, s') -> st_remake s' = st_remake s.
Proof.
  induction n as [|n IH]; intros i some s r s' E; cbn [mark_bad] in E; [injection E as <- <-; reflexivity|].
  destruct (nth_error _ _) as [p|]; [|discriminate]. destruct (bad p); [|eauto].
  destruct (markForRemoval _ s) as [s1|] eqn:E1; [|discriminate]. apply IH in E. rewrite E. eapply mark_remake, E1.
Qed.
Lemma modify_remake id f s s' : modify id f s = Some s' -> st_remake s' = st_remake s.
Proof.
  unfold modify. destruct (id <? 0); [discriminate|]. destruct (nth_error _ _) as [p|]; [|discriminate].
  destruct (write _ _ _) as [m|]; [|discriminate]. intros E; injection E as <-. reflexivity.
Qed.
Lemma step_remake o s s' : inv s -> allowed s o -> step o s = Some s' -> st_remake s = true -> st_remake s' = true.
Proof.
  intros I Hal E H. destruct o as [n ids|x v sg im t|id| | | |b|k| | |id x|id v|id f|id sg im]; cbn [step allowed] in *.
  - unfold addParticles in E. destruct (n <=? 0); [injection E as <-; exact H|].
    match type of E with option_map snd (match add_loop ?a ?b ?c with _ => _ end) = _ => destruct (add_loop a b c) as [s2|] eqn:E2; [|discriminate] end.
    cbn in E. injection E as <-. apply add_loop_remake in E2. rewrite E2. destruct (_ <? _); [rewrite resize_remake|]; exact H.
  - unfold addParticle in E. destruct (write _ _ _) as [m|]; [|discriminate]. cbn in E. injection E as <-. cbn.
    destruct (_ <? _); [rewrite resize_remake|]; exact H.
  - rewrite (mark_remake _ _ _ E). exact H.
  - unfold doParticleRemoval in E. destruct (st_rm s); [injection E as <-; exact H|].
    destruct (fill_holes _ _ _ _) as [[r [m g]]|]; [|discriminate]. injection E as <-. cbn. rewrite H. reflexivity.
  - destruct (sort_along_spec s I Hal) as (s3 & E3 & (_ & _ & _ & _ & _ & _ & _ & _ & R3 & _) & _). rewrite E in E3. injection E3 as <-. exact R3.
  - destruct (sort_spec s I Hal) as (s3 & E3 & (_ & _ & _ & _ & _ & _ & _ & _ & R3 & _)). rewrite E in E3. injection E3 as <-. exact R3.
  - unfold removeBadParticles in E. destruct (mark_bad _ _ _ _) as [[r s1]|] eqn:Em; [|discriminate]. apply mark_bad_remake in Em.
    destruct (r && b).
    + destruct (doParticleRemoval s1); [|discriminate]. cbn in E. injection E as <-. reflexivity.
    + cbn in E. injection E as <-. congruence.
  - injection E as <-. exact H.
  - injection E as <-. exact H.
  - injection E as <-. exact H.
  - rewrite (modify_remake _ _ _ _ E). exact H.
  - rewrite (modify_remake _ _ _ _ E). exact H.
  - rewrite (modify_remake _ _ _ _ E). exact H.
  - rewrite (modify_remake _ _ _ _ E). exact H.
Qed.

(* ---------- quiet calls do not look at the flags ---------- *)
Lemma add_loop_flags n ids r l : forall s, add_loop n ids (set_flags r l s) = option_map (set_flags r l) (add_loop n ids s).
Proof.
  induction n as [|n IH]; intros s; cbn [add_loop option_map]; [reflexivity|].
  unfold add_one. cbn [set_flags st_mem st_size st_dims st_nev st_nes st_nei st_next]. 
  change (blank (set_flags r l s)) with (blank s). destruct (write _ _ _) as [m|]; [|reflexivity]. rewrite <- IH. reflexivity.
Qed.
Lemma modify_flags id f r l s : modify id f (set_flags r l s) = option_map (set_flags r l) (modify id f s).
Proof.
  unfold modify. destruct (id <? 0); [reflexivity|]. cbn [set_flags st_mem]. destruct (nth_error _ _) as [p|]; [|reflexivity].
  destruct (write _ _ _) as [m|]; reflexivity.
Qed.
Lemma resize_flags k r l s : resize k (set_flags r l s) = set_flags r l (resize k s).
Proof. unfold resize. destruct (k <=? 0); reflexivity. Qed.
Lemma quiet_flags o r l s : quiet o -> step o (set_flags r l s) = option_map (set_flags r l) (step o s).
Proof.
  intros Hq. destruct o as [n ids|x v sg im t|id| | | |b|k| | |id x|id v|id f|id sg im]; cbn [step quiet] in *; try contradiction; try reflexivity; try apply modify_flags.
  - unfold addParticles. destruct (n <=? 0); [reflexivity|]. cbn zeta. unfold st_cap. cbn [set_flags st_size st_mem].
    destruct (_ <? _).
    + fold (set_flags r l s). rewrite resize_flags, add_loop_flags. destruct (add_loop _ _ _); reflexivity.
    + fold (set_flags r l s). rewrite add_loop_flags. destruct (add_loop _ _ _); reflexivity.
  - unfold addParticle. cbn zeta. unfold st_cap. cbn [set_flags st_size st_mem]. destruct (_ <? _).
    + fold (set_flags r l s). rewrite resize_flags. cbn [set_flags st_mem st_size st_next]. change (blank (set_flags r l (resize (Z.max 32 (Z.of_nat (st_size s) / 10)) s))) with (blank (resize (Z.max 32 (Z.of_nat (st_size s) / 10)) s)).
      destruct (write _ _ _); reflexivity.
    + fold (set_flags r l s). cbn [set_flags st_mem st_size st_next]. change (blank (set_flags r l s)) with (blank s). destruct (write _ _ _); reflexivity.
  - unfold markForRemoval. destruct (id <? 0); [reflexivity|]. cbn [set_flags st_mem st_size]. destruct (nth_error _ _) as [p|]; [|reflexivity].
    destruct (_ || _); [reflexivity|]. destruct (write _ _ _); reflexivity.
Qed.

Lemma flags_inv r l s : inv s -> inv (set_flags r l s).
Proof. intros []; constructor; assumption. Qed.
Lemma flags_idinv r l s : idinv s -> idinv (set_flags r l s).
Proof. intros []; constructor; assumption. Qed.
Lemma step_invs o s s' : inv s -> idinv s -> id_op o -> allowed s o -> step o s = Some s' -> inv s' /\ idinv s'.
Proof. intros I Hid Hop Hal E. eapply reach_ids_inv; [exact I|exact Hid|eapply reachi_step; [constructor|exact Hop|exact Hal|exact E]]. Qed.

(* ---------- local ids that are right when they have to be ---------- *)
Definition tracked (s : store) (gids lids : list Z) : Prop :=
  length lids = length gids /\ (forall k, In k gids -> k < st_next s) /\ (st_remake s = true \/ Forall2 (right s) gids lids).

Lemma right_move s s' gids lids : (forall k, In k gids -> k < st_next s) ->
  (forall k, lives s' k -> lives s k \/ st_next s <= k) -> (forall k l, lives_at s k l -> lives s' k -> lives_at s' k l) -> lookup_exact s' ->
  Forall2 (right s) gids lids -> Forall2 (right s') gids lids.
Proof.
  intros Hlt Hll Had He H. induction H as [|k lid gids lids Hr _ IH]; constructor.
  - intros l Hl. destruct (Hll k (ex_intro _ l Hl)) as [[l1 Hl1]|Hge]; [|specialize (Hlt k (or_introl eq_refl)); lia].
    pose proof (Had k l1 Hl1 (ex_intro _ l Hl)) as H2. rewrite (lives_unique s' k l l1 He Hl H2). now apply Hr.
  - apply IH. intros; apply Hlt; now right.
Qed.
Lemma tracked_step o s s' gids lids : inv s -> idinv s -> id_op o -> allowed s o -> step o s = Some s' -> tracked s gids lids -> tracked s' gids lids.
Proof.
  intros I Hid Hop Hal E (Hlen & Hlt & Hr). destruct (step_lives o s s' I Hid Hop Hal E) as [Hn Hll]. destruct (step_invs o s s' I Hid Hop Hal E) as [I' Hid'].
  split; [exact Hlen|]. split; [intros k Hk; specialize (Hlt k Hk); lia|]. destruct (st_remake s') eqn:Er; [now left|right].
  destruct Hr as [Hr|Hr]; [rewrite (step_remake o s s' I Hal E Hr) in Er; discriminate|].
  eapply right_move; [exact Hlt|exact Hll|exact (step_addr o s s' I Hid Hop Hal E Er)|exact (exact_of_ids _ (idi_ok _ Hid'))|exact Hr].
Qed.
Lemma quiet_right_step o s s' gids lids : inv s -> idinv s -> quiet o -> id_op o -> allowed s o -> step o s = Some s' ->
  (forall k, In k gids -> k < st_next s) -> Forall2 (right s) gids lids -> Forall2 (right s') gids lids.
Proof.
  intros I Hid Hq Hop Hal E Hlt Hr.
  assert (E' : step o (set_flags false false s) = Some (set_flags false false s')) by (rewrite quiet_flags, E; auto).
  assert (Hal' : allowed (set_flags false false s) o) by (destruct o; exact Hal).
  destruct (step_lives o s s' I Hid Hop Hal E) as [_ Hll]. destruct (step_invs o s s' I Hid Hop Hal E) as [_ Hid'].
  pose proof (step_addr o _ _ (flags_inv _ _ _ I) (flags_idinv _ _ _ Hid) Hop Hal' E' eq_refl) as Had.
  eapply right_move; [exact Hlt|exact Hll|exact Had|exact (exact_of_ids _ (idi_ok _ Hid'))|exact Hr].
Qed.

Definition good (s : store) : Prop := inv s /\ idinv s.
Lemma calls_good P s s' : calls P s s' -> good s -> good s' /\ st_next s <= st_next s'.
Proof.
  induction 1 as [|s o s1 s2 _ Hop Hal E _ IH]; intros [I Hid]; [split; [split; assumption|lia]|].
  destruct (step_invs o s s1 I Hid Hop Hal E). destruct (step_lives o s s1 I Hid Hop Hal E) as [Hn _]. destruct IH; [split; assumption|]. split; [assumption|lia].
Qed.
Lemma calls_tracked P s s' gids lids : calls P s s' -> good s -> tracked s gids lids -> tracked s' gids lids.
Proof.
  induction 1 as [|s o s1 s2 _ Hop Hal E _ IH]; intros [I Hid] H; [exact H|].
  apply IH; [exact (step_invs o s s1 I Hid Hop Hal E)|]. eapply tracked_step; eassumption.
Qed.
Lemma quiet_right s s' gids lids : calls quiet s s' -> good s -> (forall k, In k gids -> k < st_next s) -> Forall2 (right s) gids lids -> Forall2 (right s') gids lids.
Proof.
  induction 1 as [|s o s1 s2 Hq Hop Hal E _ IH]; intros [I Hid] Hlt H; [exact H|].
  apply IH; [exact (step_invs o s s1 I Hid Hop Hal E)| |eapply quiet_right_step; eassumption].
  intros k Hk. destruct (step_lives o s s1 I Hid Hop Hal E) as [Hn _]. specialize (Hlt k Hk). lia.
Qed.
Lemma right_lookup s gids : lookup_exact s -> Forall2 (right s) gids (map (fun k => getLocalID k s) gids).
Proof. intros He. induction gids as [|k l IH]; cbn; constructor; [|exact IH]. intros a Ha. destruct (He k a) as [H _]. now apply H. Qed.
Lemma quiet_tracked s s' f gids lids : calls quiet s s' -> good s -> (forall k, In k gids -> k < st_next s) -> Forall2 (right s) gids lids ->
  tracked (set_flags false f s') gids lids.
Proof.
  intros Hc Hg Hlt Hr. destruct (calls_good _ _ _ Hc Hg) as [_ Hn]. split; [clear - Hr; induction Hr; cbn; congruence|]. split; [intros k Hk; specialize (Hlt k Hk); cbn; lia|].
  right. exact (quiet_right _ _ _ _ Hc Hg Hlt Hr).
Qed.

(* ---------- the updates ---------- *)
Lemma nth_app_here {A} (l1 : list A) a l2 : nth_error (l1 ++ a :: l2) (length l1) = Some a.
Proof. rewrite nth_error_app2, Nat.sub_diag by lia. reflexivity. Qed.
Lemma bond_loop_spec lookup gl2 : forall gr2 ll2 lr2 gl1 gr1 ll1 lr1,
  length gr1 = length gl1 -> length ll1 = length gl1 -> length lr1 = length gl1 ->
  length gr2 = length gl2 -> length ll2 = length gl2 -> length lr2 = length gl2 ->
  bond_loop lookup (length gl2) (length gl1) (gl1 ++ gl2) (gr1 ++ gr2) (ll1 ++ ll2) (lr1 ++ lr2) = Some (ll1 ++ map lookup gl2, lr1 ++ map lookup gr2).
Proof.
  induction gl2 as [|a gl2 IH]; intros gr2 ll2 lr2 gl1 gr1 ll1 lr1 H1 H2 H3 H4 H5 H6.
  - destruct gr2, ll2, lr2; try discriminate. reflexivity.
  - destruct gr2 as [|b gr2], ll2 as [|c ll2], lr2 as [|d lr2]; try discriminate. cbn [bond_loop length].
    rewrite nth_app_here. rewrite <- H1 at 1. rewrite nth_app_here. rewrite <- H2 at 1. rewrite zput_app. rewrite <- H3 at 1. rewrite zput_app.
    specialize (IH gr2 ll2 lr2 (gl1 ++ [a]) (gr1 ++ [b]) (ll1 ++ [lookup a]) (lr1 ++ [lookup b])).
    rewrite !app_length in IH. cbn [length] in IH. rewrite <- !app_assoc in IH. cbn [app map] in *. replace (length gl1 + 1)%nat with (S (length gl1)) in IH by lia.
    apply IH; cbn in *; lia.
Qed.
Definition lens (b : bonds) : Prop := length (b_gright b) = length (b_gleft b) /\ length (b_left b) = length (b_gleft b) /\ length (b_right b) = length (b_gleft b) /\ length (b_rest b) = length (b_gleft b).
Lemma bond_update_spec s b : lens b -> bond_update s b = Some (mkBonds (b_gleft b) (b_gright b) (map (fun k => getLocalID k s) (b_gleft b)) (map (fun k => getLocalID k s) (b_gright b)) (b_rest b)).
Proof.
  intros (H1 & H2 & H3 & H4). unfold bond_update, checkBondVectors. rewrite H1, H2, H3, !Nat.eqb_refl. cbn [andb].
  pose proof (bond_loop_spec (fun k => getLocalID k s) (b_gleft b) (b_gright b) (b_left b) (b_right b) [] [] [] [] eq_refl eq_refl eq_refl H1 H2 H3) as H.
  cbn [app length] in H. rewrite H. reflexivity.
Qed.
Lemma chain_loop_spec lookup g2 : forall l2 g1 l1, length l1 = length g1 -> length l2 = length g2 ->
  chain_loop lookup (length g2) (length g1) (g1 ++ g2) (l1 ++ l2) = Some (l1 ++ map lookup g2).
Proof.
  induction g2 as [|a g2 IH]; intros l2 g1 l1 H1 H2; destruct l2 as [|c l2]; try discriminate; [reflexivity|].
  cbn [chain_loop length]. rewrite nth_app_here. rewrite <- H1 at 1. rewrite zput_app.
  specialize (IH l2 (g1 ++ [a]) (l1 ++ [lookup a])). rewrite !app_length in IH. cbn [length] in IH. rewrite <- !app_assoc in IH. cbn [app map] in *.
  replace (length g1 + 1)%nat with (S (length g1)) in IH by lia. apply IH; cbn in *; lia.
Qed.
Lemma chain_update_spec s c : length (h_lids c) = length (h_gids c) -> chain_update s c = Some (mkChain (h_gids c) (map (fun k => getLocalID k s) (h_gids c)) (h_rest c)).
Proof.
  intros H. unfold chain_update. pose proof (chain_loop_spec (fun k => getLocalID k s) (h_gids c) (h_lids c) [] [] eq_refl H) as E. cbn [app length] in E. rewrite E. reflexivity.
Qed.

Lemma forall2_nth {A B} (P : A -> B -> Prop) l l' i a b : Forall2 P l l' -> nth_error l i = Some a -> nth_error l' i = Some b -> P a b.
Proof. intros H. revert i. induction H; intros [|i] Ha Hb; cbn in *; try discriminate; [injection Ha as ->; injection Hb as ->; assumption|eauto]. Qed.
Lemma right_entry s k l lid p : right s k lid -> lives_at s k l -> entry s lid = Some p -> at_ s l p /\ alive p /\ p_gid p = k.
Proof.
  intros Hr Hl E. pose proof (Hr l Hl) as ->. unfold entry in E. destruct (Z.ltb_spec (Z.of_nat l) 0); [lia|]. rewrite Nat2Z.id in E.
  destruct Hl as (q & [Hq Eq] & Ha & Hg). assert (q = p) by congruence. subst q. repeat split; auto.
Qed.
Lemma right_entry_ex s k l lid : right s k lid -> lives_at s k l -> exists p, entry s lid = Some p.
Proof. intros Hr Hl. pose proof (Hr l Hl) as ->. destruct Hl as (q & [Hq Eq] & _). exists q. unfold entry. destruct (Z.ltb_spec (Z.of_nat l) 0); [lia|]. now rewrite Nat2Z.id. Qed.

(* ---------- bonds ---------- *)
Definition e_l (e : Z * Z * (list num * list num)) := fst (fst e).
Definition e_r (e : Z * Z * (list num * list num)) := snd (fst e).
Definition e_d (e : Z * Z * (list num * list num)) := snd e.
Definition b_ok (s : store) (b : bonds) (m : made) : Prop :=
  b_gleft b = map e_l m /\ b_gright b = map e_r m /\ b_rest b = map e_d m /\ tracked s (map e_l m) (b_left b) /\ tracked s (map e_r m) (b_right b).
Lemma b_ok_lens s b m : b_ok s b m -> lens b.
Proof. intros (H1 & H2 & H3 & (H4 & _) & (H5 & _)). unfold lens. rewrite H1, H2, H3, H4, H5, !map_length. auto. Qed.

Lemma refreshed s b m : good s -> b_ok s b m -> exists b', (if st_remake s then bond_update s b else Some b) = Some b' /\
  b_gleft b' = map e_l m /\ b_gright b' = map e_r m /\ b_rest b' = map e_d m /\ Forall2 (right s) (map e_l m) (b_left b') /\ Forall2 (right s) (map e_r m) (b_right b').
Proof.
  intros [I Hid] H. pose proof (b_ok_lens _ _ _ H) as Hl. destruct H as (H1 & H2 & H3 & (_ & _ & H4) & (_ & _ & H5)).
  destruct (st_remake s).
  - rewrite bond_update_spec by exact Hl. eexists. split; [reflexivity|]. cbn. rewrite H1, H2, H3. repeat split; apply right_lookup; exact (exact_of_ids _ (idi_ok _ Hid)).
  - exists b. split; [reflexivity|]. destruct H4 as [|H4]; [discriminate|]. destruct H5 as [|H5]; [discriminate|]. auto.
Qed.
Lemma f2_len {A B} (P : A -> B -> Prop) l l' : Forall2 P l l' -> length l' = length l.
Proof. induction 1; cbn; congruence. Qed.
Lemma skipn_step {A} (l : list A) i a : nth_error l i = Some a -> skipn i l = a :: skipn (S i) l.
Proof. revert i. induction l as [|x l IH]; intros [|i] H; cbn in *; try discriminate; [injection H as ->; reflexivity|]. now apply IH. Qed.

Definition act (s : store) (e : Z * Z * (list num * list num)) (r : part * part * (list num * list num)) : Prop := snd r = snd e /\ (both_live s e -> joins s e r).
Lemma act_of s g1 g2 d lid1 lid2 p1 p2 : right s g1 lid1 -> right s g2 lid2 -> entry s lid1 = Some p1 -> entry s lid2 = Some p2 -> act s (g1, g2, d) (p1, p2, d).
Proof.
  intros R1 R2 E1 E2. split; [reflexivity|]. intros [[l1 L1] [l2 L2]]. cbn [fst snd] in *.
  destruct (right_entry _ _ _ _ _ R1 L1 E1) as (A1 & B1 & C1). destruct (right_entry _ _ _ _ _ R2 L2 E2) as (A2 & B2 & C2).
  split; [|split; [|reflexivity]]; cbn; unfold is_living; eauto.
Qed.
Lemma bond_ends_spec s b m : Forall2 (right s) (map e_l m) (b_left b) -> Forall2 (right s) (map e_r m) (b_right b) -> b_rest b = map e_d m ->
  forall n i, (i + n = length m)%nat ->
  (forall l, bond_ends s b n i = Some l -> Forall2 (act s) (skipn i m) l) /\ ((forall e, In e m -> both_live s e) -> exists l, bond_ends s b n i = Some l).
Proof.
  intros Hl Hr Hd. pose proof (f2_len _ _ _ Hl) as Ll. pose proof (f2_len _ _ _ Hr) as Lr. rewrite map_length in Ll, Lr.
  induction n as [|n IH]; intros i Hi.
  - cbn. split; [intros l E; injection E as <-; rewrite skipn_all2 by lia; constructor|eauto].
  - destruct (nth_error_ex m i) as [e Ee]; [lia|]. destruct (nth_error_ex (b_left b) i) as [lid1 E1]; [lia|]. destruct (nth_error_ex (b_right b) i) as [lid2 E2]; [lia|].
    cbn [bond_ends]. rewrite E1, E2, Hd, nth_error_map, Ee. cbn [option_map]. destruct (IH (S i)) as [IH1 IH2]; [lia|].
    assert (R1 : right s (e_l e) lid1) by (apply (forall2_nth _ _ _ i _ _ Hl); [now rewrite nth_error_map, Ee|exact E1]).
    assert (R2 : right s (e_r e) lid2) by (apply (forall2_nth _ _ _ i _ _ Hr); [now rewrite nth_error_map, Ee|exact E2]).
    split.
    + intros l. destruct (entry s lid1) as [p1|] eqn:F1; [|discriminate]. destruct (entry s lid2) as [p2|] eqn:F2; [|discriminate].
      destruct (bond_ends s b n (S i)) as [l'|]; [|discriminate]. intros E. injection E as <-. rewrite (skipn_step _ _ _ Ee).
      constructor; [|now apply IH1]. destruct e as [[g1 g2] d]. eapply act_of; eassumption.
    + intros Hlv. destruct (Hlv e (nth_error_In _ _ Ee)) as [[l1 L1] [l2 L2]]. destruct (right_entry_ex _ _ _ _ R1 L1) as [p1 ->].
      destruct (right_entry_ex _ _ _ _ R2 L2) as [p2 ->]. destruct (IH2 Hlv) as [l' ->]. eauto.
Qed.
Lemma b_ok_interact s b m : good s -> b_ok s b m ->
  (forall l b', bond_interact s b = Some (l, b') -> Forall2 (act s) m l /\ b_gleft b' = map e_l m /\ b_gright b' = map e_r m /\ b_rest b' = map e_d m /\
     Forall2 (right s) (map e_l m) (b_left b') /\ Forall2 (right s) (map e_r m) (b_right b')) /\
  ((forall e, In e m -> both_live s e) -> exists l b', bond_interact s b = Some (l, b')).
Proof.
  intros Hg H. destruct (refreshed s b m Hg H) as (b1 & E1 & H1 & H2 & H3 & H4 & H5).
  assert (Hn : (0 + length (b_left b) = length m)%nat) by (destruct H as (_ & _ & _ & (X & _) & _); rewrite X, map_length; lia).
  destruct (bond_ends_spec s b1 m H4 H5 H3 _ _ Hn) as [S1 S2]. unfold bond_interact. cbn zeta. rewrite E1. split.
  - intros l b'. destruct (bond_ends _ _ _ _) as [l1|]; [|discriminate]. intros E. injection E as <- <-. specialize (S1 l1 eq_refl). cbn [skipn] in S1. auto 10.
  - intros Hlv. destruct (S2 Hlv) as [l ->]. eauto.
Qed.

Lemma right_live s l p : good s -> at_ s l p -> alive p -> entry s (getLocalID (p_gid p) s) = Some p /\ right s (p_gid p) (getLocalID (p_gid p) s) /\ p_gid p < st_next s.
Proof.
  intros [I Hid] Ha Hv. pose proof (exact_of_ids _ (idi_ok _ Hid)) as He. assert (Hl : lives_at s (p_gid p) l) by (exists p; auto).
  assert (E : getLocalID (p_gid p) s = Z.of_nat l) by (destruct (He (p_gid p) l) as [X _]; apply X; exact Hl).
  split; [|split].
  - rewrite E. unfold entry. destruct (Z.ltb_spec (Z.of_nat l) 0); [lia|]. rewrite Nat2Z.id. apply Ha.
  - intros l' Hl'. rewrite E. f_equal. exact (lives_unique s _ _ _ He Hl Hl').
  - exact (lives_lt s _ Hid (ex_intro _ l Hl)).
Qed.
Lemma tracked_snoc s gids lids g lid : tracked s gids lids -> right s g lid -> g < st_next s -> tracked s (gids ++ [g]) (lids ++ [lid]).
Proof.
  intros (H1 & H2 & H3) Hr Hn. split; [rewrite !app_length; cbn; lia|]. split; [intros k Hk; apply in_app_or in Hk as [Hk|[<-|[]]]; auto|].
  destruct H3 as [H3|H3]; [now left|right]. apply Forall2_app; [exact H3|]. constructor; [exact Hr|constructor].
Qed.

Lemma bonded_ok s0 s b m : bonded_history s0 s b m -> good s0 -> good s /\ b_ok s b m.
Proof.
  intros H Hg0. induction H as [|s b m s' H [Hg Hb] Hc|s b m g1 g2 l1 l2 p1 p2 b' H [Hg Hb] A1 V1 G1 A2 V2 G2 E|s b m l b' s' f H [Hg Hb] E Hc].
  - split; [exact Hg0|]. unfold b_ok. cbn. repeat split; try (intros k []); right; constructor.
  - split; [exact (proj1 (calls_good _ _ _ Hc Hg))|]. destruct Hb as (H1 & H2 & H3 & H4 & H5). unfold b_ok. repeat split; try assumption; try (eapply calls_tracked; eassumption);
      (eapply calls_tracked in H4; [|exact Hc|exact Hg]; eapply calls_tracked in H5; [|exact Hc|exact Hg]; apply H4 || apply H5).
  - split; [exact Hg|]. subst g1 g2. destruct (right_live s l1 p1 Hg A1 V1) as (F1 & R1 & N1). destruct (right_live s l2 p2 Hg A2 V2) as (F2 & R2 & N2).
    unfold addBond in E. cbn zeta in E. rewrite F1, F2 in E. injection E as <-. destruct Hb as (H1 & H2 & H3 & H4 & H5). unfold b_ok. cbn [b_gleft b_gright b_left b_right b_rest].
    rewrite H1, H2, H3, !map_app. split; [reflexivity|]. split; [reflexivity|]. split; [reflexivity|]. split; apply tracked_snoc; assumption.
  - pose proof (b_ok_interact s b m Hg Hb) as [X _]. destruct (X l b' E) as (_ & H1 & H2 & H3 & H4 & H5). destruct (calls_good _ _ _ Hc Hg) as [Hg' Hn].
    split; [split; [apply flags_inv, Hg'|apply flags_idinv, Hg']|]. destruct Hb as (_ & _ & _ & (_ & N4 & _) & (_ & N5 & _)).
    unfold b_ok. split; [exact H1|]. split; [exact H2|]. split; [exact H3|]. split; eapply quiet_tracked; eassumption.
Qed.

(* ---------- chains ---------- *)
Definition links (a : list Z) : list (Z * Z) := combine a (tl a).
Definition c_ok (s : store) (c : chain) (a : list Z) (m : made) : Prop :=
  h_gids c = a /\ h_rest c = map e_d m /\ map fst m = links a /\ tracked s a (h_lids c).
Lemma links_snoc a g0 g : links ((a ++ [g0]) ++ [g]) = links (a ++ [g0]) ++ [(g0, g)].
Proof.
  unfold links. induction a as [|x a IH]; [reflexivity|]. destruct a as [|y a]; [reflexivity|]. cbn [app tl combine] in *. f_equal. exact IH.
Qed.
Lemma links_nth a i x y : nth_error (links a) i = Some (x, y) -> nth_error a i = Some x /\ nth_error a (S i) = Some y.
Proof.
  unfold links. revert i. induction a as [|z a IH]; intros i H; [destruct i; discriminate|]. destruct a as [|w a]; [destruct i; discriminate|].
  destruct i as [|i]; [cbn in H; injection H as -> ->; auto|]. cbn [tl combine nth_error] in H. apply (IH i) in H. exact H.
Qed.
Lemma links_len a : length (links a) = (length a - 1)%nat.
Proof. unfold links. rewrite combine_length. destruct a; cbn [tl length]; lia. Qed.

Lemma chain_ends_spec s c a m : Forall2 (right s) a (h_lids c) -> h_rest c = map e_d m -> map fst m = links a ->
  forall n i, (i + n = length m)%nat ->
  (forall l, chain_ends s c n i = Some l -> Forall2 (act s) (skipn i m) l) /\ ((forall e, In e m -> both_live s e) -> exists l, chain_ends s c n i = Some l).
Proof.
  intros Hl Hd Hm. pose proof (f2_len _ _ _ Hl) as Ll. 
  induction n as [|n IH]; intros i Hi.
  - cbn. split; [intros l E; injection E as <-; rewrite skipn_all2 by lia; constructor|eauto].
  - destruct (nth_error_ex m i) as [e Ee]; [lia|]. destruct e as [[g1 g2] d].
    assert (En : nth_error (links a) i = Some (g1, g2)) by (rewrite <- Hm, nth_error_map, Ee; reflexivity). apply links_nth in En as [N1 N2].
    assert (B1 : (i < length a)%nat) by (apply nth_error_Some; congruence). assert (B2 : (S i < length a)%nat) by (apply nth_error_Some; congruence).
    destruct (nth_error_ex (h_lids c) i) as [lid1 E1]; [lia|]. destruct (nth_error_ex (h_lids c) (S i)) as [lid2 E2]; [lia|].
    cbn [chain_ends]. rewrite E1, E2, Hd, nth_error_map, Ee. cbn [option_map]. destruct (IH (S i)) as [IH1 IH2]; [lia|].
    pose proof (forall2_nth _ _ _ i _ _ Hl N1 E1) as R1. pose proof (forall2_nth _ _ _ (S i) _ _ Hl N2 E2) as R2.
    split.
    + intros l. destruct (entry s lid1) as [p1|] eqn:F1; [|discriminate]. destruct (entry s lid2) as [p2|] eqn:F2; [|discriminate].
      destruct (chain_ends s c n (S i)) as [l'|]; [|discriminate]. intros E. injection E as <-. rewrite (skipn_step _ _ _ Ee).
      constructor; [|now apply IH1]. eapply act_of; eassumption.
    + intros Hlv. destruct (Hlv _ (nth_error_In _ _ Ee)) as [[l1 L1] [l2 L2]]. cbn [fst snd] in *. destruct (right_entry_ex _ _ _ _ R1 L1) as [p1 ->].
      destruct (right_entry_ex _ _ _ _ R2 L2) as [p2 ->]. destruct (IH2 Hlv) as [l' ->]. eauto.
Qed.
Lemma c_ok_interact s c a m : good s -> c_ok s c a m ->
  (forall l c', chain_interact s c = Some (l, c') -> Forall2 (act s) m l /\ h_gids c' = a /\ h_rest c' = map e_d m /\ Forall2 (right s) a (h_lids c')) /\
  ((forall e, In e m -> both_live s e) -> exists l c', chain_interact s c = Some (l, c')).
Proof.
  intros [I Hid] (H1 & H2 & H3 & (H4 & H5 & H6)).
  assert (exists c1, (if st_remake s then chain_update s c else Some c) = Some c1 /\ h_gids c1 = a /\ h_rest c1 = map e_d m /\ Forall2 (right s) a (h_lids c1)) as (c1 & E1 & G1 & G2 & G3).
  { destruct (st_remake s).
    - rewrite chain_update_spec by (rewrite H1; exact H4). eexists. split; [reflexivity|]. cbn. rewrite H1, H2. repeat split. apply right_lookup. exact (exact_of_ids _ (idi_ok _ Hid)).
    - exists c. destruct H6 as [|H6]; [discriminate|]. auto. }
  assert (Hn : (0 + (length (h_lids c1) - 1) = length m)%nat) by (rewrite (f2_len _ _ _ G3), <- links_len, <- H3, map_length; lia).
  destruct (chain_ends_spec s c1 a m G3 G2 H3 _ _ Hn) as [S1 S2]. unfold chain_interact. rewrite E1. split.
  - intros l c'. destruct (chain_ends _ _ _ _) as [l1|]; [|discriminate]. intros E. injection E as <- <-. specialize (S1 l1 eq_refl). cbn [skipn] in S1. auto 10.
  - intros Hlv. destruct (S2 Hlv) as [l ->]. eauto.
Qed.
Lemma chain_ok s0 s c a m : chain_history s0 s c a m -> good s0 -> good s /\ c_ok s c a m.
Proof.
  intros H Hg0. induction H as [|s c a m s' H [Hg Hb] Hc|s c g c' H [Hg Hb] Hlv Hr E|s c a g0 m g l1 l2 p1 p2 c' H [Hg Hb] A1 V1 G1 A2 V2 G2 E|s c a m l c' s' f H [Hg Hb] E Hc].
  - split; [exact Hg0|]. unfold c_ok. cbn. repeat split; try (intros k []); right; constructor.
  - split; [exact (proj1 (calls_good _ _ _ Hc Hg))|]. destruct Hb as (H1 & H2 & H3 & H4). split; [exact H1|]. split; [exact H2|]. split; [exact H3|]. eapply calls_tracked; eassumption.
  - split; [exact Hg|]. destruct Hb as (H1 & H2 & H3 & (H4 & H5 & _)). unfold addAtom in E. rewrite H1 in E. injection E as <-. unfold c_ok. cbn [h_gids h_lids h_rest].
    split; [reflexivity|]. split; [exact H2|]. split; [reflexivity|]. split; [rewrite app_length, H4; reflexivity|]. split; [|now left].
    intros k [<-|[]]. exact (lives_lt s _ (proj2 Hg) Hlv).
  - split; [exact Hg|]. subst g0 g. destruct (right_live s l1 p1 Hg A1 V1) as (F1 & _ & _). destruct (right_live s l2 p2 Hg A2 V2) as (F2 & R2 & N2).
    destruct Hb as (H1 & H2 & H3 & H4). unfold addAtom in E. rewrite H1 in E. cbn zeta in E. rewrite last_last, F1, F2 in E.
    assert (E' : c' = mkChain ((a ++ [p_gid p1]) ++ [p_gid p2]) (h_lids c ++ [getLocalID (p_gid p2) s]) (h_rest c ++ [(p_x p1, p_x p2)])).
    { destruct (a ++ [p_gid p1]) eqn:X; [destruct a; discriminate|]. injection E as <-. reflexivity. }
    subst c'. unfold c_ok. cbn [h_gids h_lids h_rest]. split; [reflexivity|]. split; [rewrite H2, map_app; reflexivity|].
    split; [rewrite links_snoc, <- H3, map_app; reflexivity|]. apply tracked_snoc; assumption.
  - pose proof (c_ok_interact s c a m Hg Hb) as [X _]. destruct (X l c' E) as (_ & H1 & H2 & H4). destruct (calls_good _ _ _ Hc Hg) as [Hg' Hn].
    split; [split; [apply flags_inv, Hg'|apply flags_idinv, Hg']|]. destruct Hb as (_ & _ & H3 & (_ & N4 & _)).
    split; [exact H1|]. split; [exact H2|]. split; [exact H3|]. eapply quiet_tracked; eassumption.
Qed.
