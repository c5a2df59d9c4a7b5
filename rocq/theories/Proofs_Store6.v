(* Ids handed out; marks and removal; several processors. *)
From Verif Require Import Lib Model_Store Spec_Store Proofs_Store1 Proofs_Store2 Proofs_Store3 Proofs_Store4 Proofs_Store5.
From Coq Require Import Permutation Sorted ZifyBool ZifyNat.
Local Open Scope Z_scope.

Lemma add_loop_next n s s' : add_loop n false s = Some s' -> st_next s' = st_next s /\ st_d s' = st_d s.
Proof.
  revert s. induction n as [|n IH]; cbn [add_loop]; intros s H; [injection H as <-; auto|].
  destruct (add_one false s) as [s1|] eqn:E; [|discriminate]. apply IH in H. unfold add_one in E.
  destruct (write _ _ _); [|discriminate]. injection E as <-. exact H.
Qed.

Lemma id_seq_in n a d g : In g (id_seq n a d) -> exists k, 0 <= k < Z.of_nat n /\ g = a + k * d.
Proof.
  revert a. induction n as [|n IH]; intros a; cbn [id_seq]; [intros []|]. intros [<-|H].
  - exists 0. lia.
  - apply IH in H as (k & Hk & ->). exists (k + 1). lia.
Qed.

Lemma id_seq_len n a d : length (id_seq n a d) = n.
Proof. revert a. induction n as [|n IH]; intros a; cbn [id_seq length]; auto. Qed.

Lemma id_seq_nodup n a d : 0 < d -> NoDup (id_seq n a d).
Proof.
  intros Hd. revert a. induction n as [|n IH]; intros a; cbn [id_seq]; constructor; auto.
  intros H. apply id_seq_in in H as (k & Hk & E). nia.
Qed.

Lemma appended_seq s s' (l : list part) : st_size s' = (st_size s + length l)%nat ->
  (forall k p, nth_error l k = Some p -> at_ s' (st_size s + k) p) -> appended s s' = l.
Proof.
  intros Hs H. unfold appended. apply nth_error_ext_eq. intros k. rewrite Hs.
  replace (st_size s + length l - st_size s)%nat with (length l) by lia.
  destruct (Nat.lt_ge_cases k (length l)) as [Hk|Hk].
  - rewrite nth_error_firstn_lt by auto. rewrite nth_error_skipn. destruct (nth_error_ex l k Hk) as [p Ep].
    destruct (H k p Ep) as [_ E]. congruence.
  - rewrite nth_error_firstn_ge by auto. symmetry. now apply nth_error_None.
Qed.

(* What each step does to the id counter and to the ids of the particles. *)
Lemma step_next o s s' : inv s -> 0 < st_d s -> allowed s o -> step o s = Some s' ->
  st_d s' = st_d s /\ st_next s <= st_next s' /\
  (match o with OpAddMany _ true | OpAdd _ _ _ _ _ =>
     NoDup (map p_gid (appended s s')) /\ forall g, In g (map p_gid (appended s s')) -> st_next s <= g < st_next s'
   | _ => True end) /\
  (only_default_adds o -> (exists j, 0 <= j /\ st_next s' = st_next s + j * st_d s) /\
     forall p, In p (particles s') -> In (p_gid p) (map p_gid (particles s)) \/ exists k, 0 <= k /\ p_gid p = st_next s + k * st_d s).
Proof.
  intros I Hd Hal E.
  assert (Hperm : st_d s' = st_d s -> st_next s' = st_next s -> (forall p, In p (particles s') -> In (p_gid p) (map p_gid (particles s))) ->
    st_d s' = st_d s /\ st_next s <= st_next s' /\ ((exists j, 0 <= j /\ st_next s' = st_next s + j * st_d s) /\
     forall p, In p (particles s') -> In (p_gid p) (map p_gid (particles s)) \/ exists k, 0 <= k /\ p_gid p = st_next s + k * st_d s)).
  { intros H1 H2 H3. split; [auto|]. split; [lia|]. split; [exists 0; lia|]. intros p Hp. left. auto. }
  assert (Hagree : forall m, agree (st_mem s) m -> forall p, In p (particles (set_mem m s)) -> In (p_gid p) (map p_gid (particles s))).
  { intros m Hag p Hp. unfold particles in *. revert Hp. sfields. intros Hp. apply filter_In in Hp as [Hp Ha].
    apply In_firstn_nth in Hp as (k & Hk & Ek). destruct (agree_back _ _ Hag k p Ek) as (q & Eq & Et & Eg).
    rewrite Eg. apply in_map. apply filter_In. split; [|unfold aliveb in *; now rewrite <- Et].
    apply nth_error_In with (n := k). rewrite nth_error_firstn_lt; auto. }
  assert (Hpe : forall s2, Permutation (particles s) (particles s2) -> forall p, In p (particles s2) -> In (p_gid p) (map p_gid (particles s))).
  { intros s2 HP p Hp. apply in_map. eapply Permutation_in; [symmetry; exact HP|exact Hp]. }
  assert (Hmod : forall id f, (forall p, p_type (f p) = p_type p /\ p_gid (f p) = p_gid p) -> modify id f s = Some s' ->
     exists m, s' = set_mem m s /\ agree (st_mem s) m).
  { intros id f Hf H. unfold modify in H. destruct (id <? 0); [discriminate|]. destruct (nth_error (st_mem s) (Z.to_nat id)) as [p|] eqn:Ep; [|discriminate].
    destruct (write (Z.to_nat id) (f p) (st_mem s)) as [m|] eqn:Ew; [|discriminate]. injection H as <-. exists m. split; [reflexivity|].
    apply write_inv in Ew as (_ & Hl & Hk). split; [exact Hl|]. intros k q Hq. rewrite Hk.
    destruct (Nat.eqb_spec k (Z.to_nat id)) as [->|]; [|eauto]. rewrite Ep in Hq. injection Hq as <-. eexists. split; [reflexivity|]. apply Hf. }
  assert (Hmod' : forall id f, (forall p, p_type (f p) = p_type p /\ p_gid (f p) = p_gid p) -> modify id f s = Some s' ->
     st_d s' = st_d s /\ st_next s <= st_next s' /\ ((exists j, 0 <= j /\ st_next s' = st_next s + j * st_d s) /\
     forall p, In p (particles s') -> In (p_gid p) (map p_gid (particles s)) \/ exists k, 0 <= k /\ p_gid p = st_next s + k * st_d s)).
  { intros id f Hf H. destruct (Hmod id f Hf H) as (m & -> & Hag). apply Hperm; [reflexivity|reflexivity|exact (Hagree m Hag)]. }
  assert (Hx : forall A B C D : Prop, A /\ B /\ D -> C -> A /\ B /\ C /\ (only_default_adds o -> D)) by tauto.
  destruct o as [n ids|x v sg im t|id| | | |b|k| | |id x|id v|id f|id sg im]; cbn [step allowed] in *.
  - destruct (Z.le_gt_cases n 0) as [H0|H0].
    + unfold addParticles in E. destruct (Z.leb_spec n 0); [|lia]. injection E as <-.
      assert (Hap : appended s s = []) by (unfold appended; now rewrite Nat.sub_diag). rewrite Hap.
      split; [reflexivity|]. split; [lia|]. split; [destruct ids; [split; [constructor|intros g []]|exact Logic.I]|].
      intros _. split; [exists 0; lia|]. intros p Hp. left. now apply in_map.
    + rewrite addParticles_unfold in E by lia. destruct (add_loop (Z.to_nat n) ids (grown n s)) as [s2|] eqn:E2; [|discriminate].
      cbn in E. injection E as <-.
      destruct (grown_inv n s H0 I) as (I1 & _ & P1 & S1 & N1 & D1 & B1 & _ & A1 & _).
      destruct (add_loop_inv _ _ _ _ I1 E2) as (I2 & S2 & C2 & D2 & P2 & O2 & A2 & N2 & _).
      rewrite N1, D1, P1 in P2. rewrite S1, N1, D1 in A2. rewrite S1 in S2.
      destruct ids.
      * specialize (N2 eq_refl). rewrite N1, D1 in N2.
        assert (Hap : appended s s2 = map (new_default s) (id_seq (Z.to_nat n) (st_next s) (st_d s))).
        { apply appended_seq; [rewrite map_length, id_seq_len; exact S2|]. intros k p Hk. rewrite nth_error_map in Hk.
          destruct (nth_error (id_seq _ _ _) k) as [g|] eqn:Eg; [|discriminate]. injection Hk as <-. rewrite <- B1. apply A2. exact Eg. }
        assert (Hg : map p_gid (appended s s2) = id_seq (Z.to_nat n) (st_next s) (st_d s)).
        { rewrite Hap, map_map. cbn. now rewrite map_id. }
        split; [congruence|]. split; [nia|]. split.
        { rewrite Hg. split; [now apply id_seq_nodup|]. intros g Hin. apply id_seq_in in Hin as (k & Hk & ->). nia. }
        intros _. split; [exists n; split; [lia|]; rewrite N2; f_equal; f_equal; lia|].
        intros p Hp. rewrite P2 in Hp. apply in_app_or in Hp as [Hp|Hp]; [left; now apply in_map|right].
        apply in_map_iff in Hp as (g & <- & Hin). apply id_seq_in in Hin as (k & Hk & ->). exists k. split; [lia|reflexivity].
      * destruct (add_loop_next _ _ _ E2) as [N3 D3]. split; [congruence|]. split; [lia|]. split; [exact Logic.I|]. intros F. cbn in F. discriminate.
  - destruct (addParticle_inv x v sg im t s I Hal) as (s2 & E2 & I2 & P2 & A2 & S2 & _ & N2 & D2 & _). rewrite E2 in E. cbn in E. injection E as <-.
    assert (Hap : appended s s2 = [new_full s x v sg im t]).
    { apply appended_seq; [cbn [length]; lia|]. intros [|k] p Hk; [injection Hk as <-; rewrite Nat.add_0_r; exact A2|destruct k; discriminate]. }
    split; [exact D2|]. split; [lia|]. split; [|intros []].
    rewrite Hap. cbn. split; [repeat constructor; intros []|]. intros g [<-|[]]. lia.
  - destruct (mark_spec id s I ltac:(lia) ltac:(unfold st_cap in *; lia)) as (s2 & E2 & I2 & _ & C2 & S2 & N2 & D2 & _ & Hdead & Hlive).
    rewrite E2 in E. injection E as <-. apply Hx; [|exact Logic.I]. apply Hperm; auto. intros p Hp.
    destruct (in_dec Z.eq_dec (p_gid p) (map p_gid (particles s))) as [Hin|Hno]; [exact Hin|].
    apply filter_In in Hp as [Hp Ha]. apply In_firstn_nth in Hp as (k & Hk & Ek). rewrite S2 in Hk. apply in_map. apply filter_In. split; [|exact Ha].
    apply nth_error_In with (n := k). rewrite nth_error_firstn_lt by auto.
    destruct (nth_error (st_mem s) (Z.to_nat id)) as [q|] eqn:Eq.
    2:{ rewrite Hdead in Ek; [exact Ek|]. intros r [_ Hr]. congruence. }
    destruct (aliveb q) eqn:Eaq.
    2:{ rewrite Hdead in Ek; [exact Ek|]. intros r [_ Hr] Hr'. apply aliveb_spec in Hr'. congruence. }
    destruct (Nat.lt_ge_cases (Z.to_nat id) (st_size s)) as [Hid|Hid].
    2:{ rewrite Hdead in Ek; [exact Ek|]. intros r [Hr _]. lia. }
    destruct (Hlive q (conj Hid Eq) (proj1 (aliveb_spec q) Eaq)) as (_ & [_ Hm] & _ & Ho).
    destruct (Nat.eq_dec k (Z.to_nat id)) as [->|Hne]; [|rewrite <- Ho by auto; exact Ek].
    rewrite Hm in Ek. injection Ek as <-. discriminate.
  - destruct (removal_spec s I Hal) as (s2 & E2 & _ & _ & _ & _ & _ & _ & HP & N2 & D2 & _). rewrite E2 in E. injection E as <-.
    apply Hx; [|exact Logic.I]. apply Hperm; [exact D2|exact N2|exact (Hpe _ HP)].
  - destruct (sort_along_spec s I Hal) as (s2 & E2 & (_ & _ & HP & _ & _ & _ & _ & _ & _ & _ & N2 & D2) & _). rewrite E2 in E. injection E as <-.
    apply Hx; [|exact Logic.I]. apply Hperm; [exact D2|exact N2|exact (Hpe _ HP)].
  - destruct (sort_spec s I Hal) as (s2 & E2 & (_ & _ & HP & _ & _ & _ & _ & _ & _ & _ & N2 & D2)). rewrite E2 in E. injection E as <-.
    apply Hx; [|exact Logic.I]. apply Hperm; [exact D2|exact N2|exact (Hpe _ HP)].
  - unfold removeBadParticles in E. destruct (remove_bad_step b s I Hal) as (r & s2 & E2 & Er & I2 & _ & H1 & H2).
    unfold removeBadParticles in E2. destruct (mark_bad_top s I) as (s1 & Em & I1 & _ & S1 & C1 & N1 & D1 & M).
    rewrite Em in E, E2. set (fl := existsb bad (firstn (st_size s) (st_mem s))) in *.
    assert (Hm : forall p, In p (particles s1) -> In (p_gid p) (map p_gid (particles s))).
    { intros p Hp. apply filter_In in Hp as [Hp Ha]. apply In_firstn_nth in Hp as (k & Hk & Ek).
      destruct (proj1 (M k p) (conj Hk Ek)) as (q & [Hq1 Hq2] & ->). unfold if_bad in *. destruct (bad q && aliveb q) eqn:Eb; [discriminate|].
      apply in_map, filter_In. split; [|exact Ha]. apply nth_error_In with (n := k). rewrite nth_error_firstn_lt; auto. }
    destruct (fl && b) eqn:Ef.
    + destruct (doParticleRemoval s1) as [s3|] eqn:E3; [|discriminate]. cbn in E. injection E as <-.
      assert (Hc : can_remove s1).
      { destruct (st_rm s1) as [|a l] eqn:Erm; [now left|]. right.
        destruct (Z.le_gt_cases (st_number s1) 0) as [H0|H0]; [|lia]. exfalso.
        (* nothing alive: the scan would have failed *)
        apply andb_true_iff in Ef as [Ef ->]. cbn [allowed] in Hal. destruct Hal as [Hno|(k & p & Hk & Ha & Hb)].
        - unfold fl in Ef. apply existsb_exists in Ef as (p & Hp & Hb). apply In_firstn_nth in Hp as (k & Hk & Ek).
          assert (Hnk : ~ has_nan p) by (apply (Hno k p); split; auto). apply not_has_nan in Hnk. congruence.
        - assert (0 < st_number s1); [|lia]. apply number_pos; [exact I1|]. exists k, p. split; [|exact Ha].
          apply M. exists p. split; [exact Hk|]. unfold if_bad. apply not_has_nan in Hb. rewrite Hb. reflexivity. }
      destruct (removal_spec s1 I1 Hc) as (s4 & E4 & _ & _ & _ & _ & _ & _ & HP & N4 & D4 & _). rewrite E3 in E4. injection E4 as <-.
      apply Hx; [|exact Logic.I]. apply Hperm; [cbn; congruence|cbn; congruence|].
      intros p Hp. apply Hm. eapply Permutation_in; [symmetry; exact HP|exact Hp].
    + cbn in E. injection E as <-. apply Hx; [|exact Logic.I]. apply Hperm; [exact D1|exact N1|exact Hm].
  - injection E as <-. split; [reflexivity|]. split; [cbn; lia|]. split; [exact Logic.I|]. intros [].
  - injection E as <-. apply Hx; [|exact Logic.I]. apply Hperm; [reflexivity|reflexivity|]. apply Hagree. apply map_first_agree. auto.
  - injection E as <-. apply Hx; [|exact Logic.I]. apply Hperm; [reflexivity|reflexivity|]. apply Hagree. apply map_first_agree. auto.
  - apply Hx; [|exact Logic.I]. apply (Hmod' id (set_x x)); auto.
  - apply Hx; [|exact Logic.I]. apply (Hmod' id (set_v v)); auto.
  - apply Hx; [|exact Logic.I]. apply (Hmod' id (set_f f)); auto.
  - apply Hx; [|exact Logic.I]. apply (Hmod' id (set_sgim sg im)); auto.
Qed.

Lemma nodup_app {A} (l l' : list A) : NoDup l -> NoDup l' -> (forall a, In a l -> In a l' -> False) -> NoDup (l ++ l').
Proof.
  induction l as [|a l IH]; intros H1 H2 H3; [exact H2|]. inversion H1; subst. cbn. constructor.
  - intros Hin. apply in_app_or in Hin as [Hin|Hin]; [contradiction|]. apply (H3 a); [now left|exact Hin].
  - apply IH; auto. intros b Hb Hb'. apply (H3 b); [now right|exact Hb'].
Qed.

Lemma issued_nodup ops s : inv s -> 0 < st_d s -> allowed_history ops s ->
  NoDup (issued ops s) /\ forall g, In g (issued ops s) -> st_next s <= g.
Proof.
  revert s. induction ops as [|o ops IH]; intros s I Hd Hal; cbn [issued].
  { split; [constructor|intros g []]. }
  cbn [allowed_history] in Hal. destruct Hal as [Ha Hal].
  destruct (step o s) as [s'|] eqn:E; [|split; [constructor|intros g []]].
  destruct (step_next o s s' I Hd Ha E) as (Hd' & Hn & Hadd & _).
  destruct (step_ok o s I Ha) as (s2 & E2 & I2 & _). rewrite E in E2. injection E2 as <-.
  destruct (IH s' I2 ltac:(lia) Hal) as [H1 H2].
  assert (Hnil : NoDup ([] ++ issued ops s') /\ forall g, In g ([] ++ issued ops s') -> st_next s <= g).
  { split; [exact H1|]. intros g Hg. specialize (H2 g Hg). lia. }
  assert (Happ : NoDup (map p_gid (appended s s')) /\ (forall g, In g (map p_gid (appended s s')) -> st_next s <= g < st_next s') ->
     NoDup (map p_gid (appended s s') ++ issued ops s') /\ forall g, In g (map p_gid (appended s s') ++ issued ops s') -> st_next s <= g).
  { intros [A1 A2]. split.
    - apply nodup_app; auto. intros g G1 G2. specialize (A2 g G1). specialize (H2 g G2). lia.
    - intros g Hg. apply in_app_or in Hg as [Hg|Hg]; [specialize (A2 g Hg); lia|specialize (H2 g Hg); lia]. }
  destruct o as [n ids| | | | | | | | | | | | |]; try exact Hnil; [|exact (Happ Hadd)]. destruct ids; [exact (Happ Hadd)|exact Hnil].
Qed.

(* ------------------------------------------------------------------ marking a list *)

Lemma marks_spec ids s : inv s -> (forall id, In id ids -> 0 <= id < Z.of_nat (st_size s)) ->
  exists s', run (mark_all ids) s = Some s' /\ inv s' /\ st_size s' = st_size s /\
    forall k, (k < st_size s)%nat -> nth_error (st_mem s') k = option_map (fun p =>
      if aliveb p && existsb (Z.eqb (Z.of_nat k)) ids then marked p else p) (nth_error (st_mem s) k).
Proof.
  revert s. induction ids as [|id ids IH]; intros s I Hids; cbn [mark_all map run].
  - exists s. split; [reflexivity|]. split; [exact I|]. split; [reflexivity|]. intros k _. cbn [existsb].
    destruct (nth_error (st_mem s) k); cbn; [rewrite andb_false_r|]; reflexivity.
  - pose proof (Hids id (or_introl eq_refl)) as Hid. pose proof (inv_size _ I) as Hs. cbn [step].
    destruct (mark_spec id s I ltac:(lia) ltac:(unfold st_cap in *; lia)) as (s1 & E1 & I1 & _ & C1 & S1 & _ & _ & _ & Hdead & Hlive).
    rewrite E1. destruct (IH s1 I1) as (s2 & E2 & I2 & S2 & M2). { intros i Hi. rewrite S1. apply Hids. now right. }
    exists s2. split; [exact E2|]. split; [exact I2|]. split; [congruence|]. intros k Hk. rewrite M2 by lia. cbn [existsb].
    unfold st_cap in *. destruct (nth_error_ex (st_mem s) (Z.to_nat id) ltac:(lia)) as [q Eq].
    destruct (aliveb q) eqn:Ea.
    + destruct (Hlive q ltac:(split; [lia|auto]) (proj1 (aliveb_spec q) Ea)) as (_ & [_ Hm] & _ & Ho).
      destruct (Nat.eq_dec k (Z.to_nat id)) as [->|Hne].
      * rewrite Hm, Eq. cbn [option_map]. rewrite Ea. cbn [andb]. change (aliveb (marked q)) with false. cbn [andb].
        destruct (Z.eqb_spec (Z.of_nat (Z.to_nat id)) id); [reflexivity|lia].
      * rewrite Ho by auto. destruct (nth_error (st_mem s) k) as [r|]; [|reflexivity]. cbn [option_map].
        destruct (Z.eqb_spec (Z.of_nat k) id); [lia|]. reflexivity.
    + rewrite Hdead. 2:{ intros r [_ Hr] Hr'. apply aliveb_spec in Hr'. congruence. }
      destruct (nth_error (st_mem s) k) as [r|] eqn:Er; [|reflexivity]. cbn [option_map].
      destruct (Z.eqb_spec (Z.of_nat k) id) as [Hkid|]; [|reflexivity]. cbn [orb].
      assert (k = Z.to_nat id) by lia. subst k. rewrite Eq in Er. injection Er as <-. rewrite Ea. reflexivity.
Qed.

Lemma nth_error_combine {A B} (l : list A) (l' : list B) k : nth_error (combine l l') k =
  match nth_error l k, nth_error l' k with Some a, Some b => Some (a, b) | _, _ => None end.
Proof.
  revert l' k. induction l as [|a l IH]; intros [|b l'] [|k]; cbn; try reflexivity.
  - now destruct (nth_error l k).
  - apply IH.
Qed.

Lemma nth_error_seq i n k : nth_error (seq i n) k = if (k <? n)%nat then Some (i + k)%nat else None.
Proof.
  revert i k. induction n as [|n IH]; intros i [|k]; cbn [seq nth_error]; try reflexivity.
  - cbn. f_equal. lia.
  - rewrite IH. change (S k <? S n)%nat with (k <? n)%nat. destruct (k <? n)%nat; [f_equal; lia|reflexivity].
Qed.

Lemma others_marked ids s s' : inv s -> st_size s' = st_size s ->
  (forall k, (k < st_size s)%nat -> nth_error (st_mem s') k = option_map (fun p =>
      if aliveb p && existsb (Z.eqb (Z.of_nat k)) ids then marked p else p) (nth_error (st_mem s) k)) ->
  particles s' = others ids s.
Proof.
  intros I Hs M. unfold particles, others. rewrite Hs. pose proof (inv_size _ I) as Hsz. unfold st_cap in Hsz.
  assert (Hmap : firstn (st_size s) (st_mem s') =
    map (fun kp => if aliveb (snd kp) && existsb (Z.eqb (Z.of_nat (fst kp))) ids then marked (snd kp) else snd kp)
      (combine (seq 0 (st_size s)) (firstn (st_size s) (st_mem s)))).
  { apply nth_error_ext_eq. intros k. rewrite nth_error_map, nth_error_combine, nth_error_seq.
    destruct (Nat.ltb_spec k (st_size s)) as [Hk|Hk].
    - rewrite !nth_error_firstn_lt by auto. rewrite M by auto. destruct (nth_error (st_mem s) k); reflexivity.
    - rewrite !nth_error_firstn_ge by auto. reflexivity. }
  rewrite Hmap. generalize (combine (seq 0 (st_size s)) (firstn (st_size s) (st_mem s))). intros l.
  induction l as [|[k p] l IH]; [reflexivity|]. cbn [map filter fst snd].
  destruct (aliveb p) eqn:Ea; destruct (existsb (Z.eqb (Z.of_nat k)) ids); cbn [andb negb map snd]; rewrite ?Ea;
    try (change (aliveb (marked p)) with false; cbn [map]); rewrite IH; reflexivity.
Qed.

(* ------------------------------------------------------------------ several processors *)

Lemma adds_spec ks s s' : inv s -> idinv s -> st_rm s = [] -> st_d s = 1 -> st_next s = Z.of_nat (st_size s) ->
  (forall p, In p (particles s) -> 0 <= p_gid p < Z.of_nat (st_size s)) ->
  run (add_ops ks) s = Some s' ->
  inv s' /\ idinv s' /\ st_rm s' = [] /\ (forall p, In p (particles s') -> 0 <= p_gid p < Z.of_nat (st_size s')).
Proof.
  revert s. induction ks as [|k ks IH]; intros s I Hid Hrm Hd Hn Hp E; cbn [add_ops map run] in E.
  { injection E as <-. auto. }
  destruct (step (OpAddMany k true) s) as [s1|] eqn:E1; [|discriminate]. cbn [step] in E1.
  destruct (Z.le_gt_cases k 0) as [H0|H0].
  - unfold addParticles in E1. destruct (Z.leb_spec k 0); [|lia]. injection E1 as <-. apply (IH s); auto.
  - rewrite addParticles_unfold in E1 by lia. destruct (add_loop (Z.to_nat k) true (grown k s)) as [s2|] eqn:E2; [|discriminate].
    cbn in E1. injection E1 as <-.
    destruct (grown_inv k s H0 I) as (I1 & Hid1 & P1 & S1 & N1 & D1 & B1 & _ & A1 & _).
    destruct (add_loop_inv _ _ _ _ I1 E2) as (I2 & S2 & C2 & D2 & P2 & O2 & A2 & N2 & Hid2).
    apply (IH s2); auto.
    + assert (Hr2 : forall l, ~ In l (st_rm s2)).
      { intros l Hl. apply (inv_rm _ I2) in Hl as (p & [Hl1 Hl2] & Hd').
        (* st_rm is unchanged by adds: show via entries *)
        destruct (Nat.lt_ge_cases l (st_size s)) as [Hls|Hls].
        - pose proof (inv_size _ I) as Hsz. unfold st_cap in Hsz. destruct (nth_error_ex (st_mem s) l ltac:(lia)) as [q Eq].
          destruct (O2 l q (A1 l q (conj Hls Eq))) as [_ E3]. rewrite Hl2 in E3. injection E3 as <-.
          assert (In l (st_rm s)) by (apply (inv_rm _ I); exists p; split; [split; auto|auto]). rewrite Hrm in H. destruct H.
        - destruct (nth_error (id_seq (Z.to_nat k) (st_next (grown k s)) (st_d (grown k s))) (l - st_size s)) as [g|] eqn:Eg.
          2:{ apply nth_error_None in Eg. rewrite id_seq_len in Eg. lia. }
          specialize (A2 _ _ Eg). rewrite S1 in A2. replace (st_size s + (l - st_size s))%nat with l in A2 by lia.
          destruct A2 as [_ A2]. rewrite Hl2 in A2. injection A2 as ->. apply Hd'. unfold alive. cbn. lia. }
      destruct (st_rm s2) as [|a l]; [reflexivity|]. exfalso. apply (Hr2 a). now left.
    + congruence.
    + rewrite N2, N1, D1, Hn, Hd by auto. rewrite S2, S1. lia.
    + intros p Hin. rewrite P2, P1 in Hin. apply in_app_or in Hin as [Hin|Hin].
      * specialize (Hp p Hin). lia.
      * apply in_map_iff in Hin as (g & <- & Hg). apply id_seq_in in Hg as (j & Hj & ->). cbn. rewrite N1, D1, Hd, Hn in *. rewrite S2, S1. lia.
Qed.

Definition nsum (l : list nat) : nat := fold_right Nat.add 0%nat l.

Lemma nsum_app a b : nsum (a ++ b) = (nsum a + nsum b)%nat.
Proof. induction a as [|x a IH]; cbn; [reflexivity|]. fold (nsum a) (nsum (a ++ b)). lia. Qed.
Lemma nsum_le r l n : nth_error l r = Some n -> (nsum (firstn r l) + n <= nsum l)%nat.
Proof.
  intros H. rewrite <- (firstn_skipn r l) at 2. rewrite nsum_app.
  assert (exists t, skipn r l = n :: t).
  { revert l H. induction r as [|r IH]; intros [|a l] H; try discriminate; [injection H as ->; cbn; eauto|]. cbn. apply IH. exact H. }
  destruct H0 as [t ->]. cbn. fold (nsum t). lia.
Qed.
Lemma nsum_mono r r' l n : (r < r')%nat -> nth_error l r = Some n -> (nsum (firstn r l) + n <= nsum (firstn r' l))%nat.
Proof.
  intros H Hn. assert (nth_error (firstn r' l) r = Some n) by (rewrite nth_error_firstn_lt; auto).
  apply nsum_le in H0. rewrite firstn_firstn in H0. rewrite Nat.min_l in H0 by lia. exact H0.
Qed.

(* the ids a processor may hold after the correction *)
Definition zone (r : nat) (sizes : list nat) (n : nat) (g : Z) : Prop :=
  Z.of_nat (nsum (firstn r sizes)) <= g < Z.of_nat (nsum (firstn r sizes) + n) \/
  exists k, 0 <= k /\ g = Z.of_nat (nsum sizes) + 1 + Z.of_nat r + k * Z.of_nat (length sizes).

Lemma zone_disjoint r r' sizes n n' g : (r < r')%nat -> nth_error sizes r = Some n -> nth_error sizes r' = Some n' ->
  zone r sizes n g -> zone r' sizes n' g -> False.
Proof.
  intros Hr H1 H2 Z1 Z2. pose proof (nsum_mono r r' sizes n Hr H1). pose proof (nsum_le r sizes n H1). pose proof (nsum_le r' sizes n' H2).
  pose proof (nth_error_lt _ _ _ H1). pose proof (nth_error_lt _ _ _ H2).
  destruct Z1 as [Z1|(k & Hk & Ek)]; destruct Z2 as [Z2|(k' & Hk' & Ek')]; try lia; try nia.
  assert (E : Z.of_nat r - Z.of_nat r' = (k' - k) * Z.of_nat (length sizes)) by lia.
  assert (Hb : -Z.of_nat (length sizes) < Z.of_nat r - Z.of_nat r' < 0) by lia.
  clear Ek Ek'. revert E Hb. generalize (Z.of_nat r - Z.of_nat r') (k' - k) (Z.of_nat (length sizes)). intros a j L E Hb.
  destruct (Z.lt_trichotomy j 0) as [Hj|[->|Hj]]; nia.
Qed.

Lemma correct_spec r sizes s n : inv s -> idinv s -> (forall p, In p (particles s) -> 0 <= p_gid p < Z.of_nat (st_size s)) ->
  nth_error sizes r = Some n -> st_size s = n ->
  (forall l p, at_ s l p -> p_gid p < Z.of_nat (st_size s)) ->
  let s' := correct_global_ids r sizes s in
  inv s' /\ idinv s' /\ st_next s' = Z.of_nat (nsum sizes) + 1 + Z.of_nat r /\ st_d s' = Z.of_nat (length sizes) /\
  forall p, In p (particles s') -> zone r sizes n (p_gid p).
Proof.
  intros I Hid Hp Hn Hsz Hall s'. pose proof (nsum_le r sizes n Hn) as Hle. pose proof (nth_error_lt _ _ _ Hn) as Hrl.
  set (sh := Z.of_nat (nsum (firstn r sizes))).
  assert (Hs1 : exists s1, inv s1 /\ ids_ok (st_size s1) (st_mem s1) (st_map s1) /\ st_size s1 = n /\
     (forall l p, at_ s1 l p -> p_gid p < sh + Z.of_nat n) /\
     (forall p, In p (particles s1) -> sh <= p_gid p < sh + Z.of_nat n) /\
     s' = mkStore (st_dims s1) (st_nev s1) (st_nes s1) (st_nei s1) (st_mem s1) (st_size s1) (st_number s1) (st_map s1) (st_rm s1)
       (Z.of_nat (nsum sizes) + 1 + Z.of_nat r) (Z.of_nat (length sizes)) (st_remake s1) (st_locals s1)).
  { unfold s', correct_global_ids. destruct (Nat.ltb_spec 0 r) as [H0|H0].
    - exists (shift_global_ids sh s).
      assert (Hat : forall l p, at_ (shift_global_ids sh s) l p -> exists q, at_ s l q /\ p_gid p = p_gid q + sh /\ p_type p = p_type q).
      { intros l p [H1 H2]. unfold shift_global_ids in H1, H2. revert H1 H2. sfields. intros H1 H2. rewrite map_first_nth in H2.
        destruct (Nat.ltb_spec l (st_size s)); [|lia]. destruct (nth_error (st_mem s) l) as [q|] eqn:Eq; [|discriminate]. cbn in H2.
        injection H2 as <-. exists q. split; [split; auto|]. pose proof (ids_nonneg _ _ _ (idi_ok _ Hid) l q H1 Eq).
        destruct (Z.leb_spec 0 (p_gid q)); [split; reflexivity|lia]. }
      split; [now apply shift_spec|]. split; [apply (shift_ids sh s); [lia|apply Hid]|]. split; [exact Hsz|]. split.
      { intros l p Hlp. destruct (Hat l p Hlp) as (q & Hq & -> & _). specialize (Hall l q Hq). lia. }
      split; [|reflexivity]. intros p Hin. apply filter_In in Hin as [Hin Ha]. apply In_firstn_nth in Hin as (l & Hl & El).
      destruct (Hat l p (conj Hl El)) as (q & [Hq1 Hq2] & Eg & Et). rewrite Eg.
      assert (Hin : In q (particles s)).
      { apply filter_In. split; [apply nth_error_In with (n := l); rewrite nth_error_firstn_lt; auto|]. unfold aliveb in *. now rewrite <- Et. }
      specialize (Hp q Hin). lia.
    - assert (r = O) by lia. subst r. cbn in sh. exists s. split; [exact I|]. split; [apply Hid|]. split; [exact Hsz|].
      split; [intros l p Hl; specialize (Hall l p Hl); lia|]. split; [|reflexivity]. intros p Hin. specialize (Hp p Hin). lia. }
  destruct Hs1 as (s1 & I1 & Hi1 & Sz1 & Hf1 & Hp1 & ->). sfields. split; [destruct I1; constructor; auto|].
  split.
  { constructor; sfields; auto; try lia. }
  split; [reflexivity|]. split; [reflexivity|]. intros p Hin. left. specialize (Hp1 p Hin). fold sh. lia.
Qed.

Lemma zone_reach r sizes n s0 s : inv s0 -> idinv s0 -> (exists j, 0 <= j /\ st_next s0 = Z.of_nat (nsum sizes) + 1 + Z.of_nat r + j * Z.of_nat (length sizes)) ->
  st_d s0 = Z.of_nat (length sizes) -> (0 < length sizes)%nat ->
  (forall p, In p (particles s0) -> zone r sizes n (p_gid p)) -> reach_default s0 s ->
  inv s /\ idinv s /\ forall p, In p (particles s) -> zone r sizes n (p_gid p).
Proof.
  intros I0 Hid0 Hn0 Hd0 Hlen Hp0 Hr.
  cut (inv s /\ idinv s /\ (exists j, 0 <= j /\ st_next s = Z.of_nat (nsum sizes) + 1 + Z.of_nat r + j * Z.of_nat (length sizes)) /\
     st_d s = Z.of_nat (length sizes) /\ forall p, In p (particles s) -> zone r sizes n (p_gid p)); [tauto|].
  induction Hr as [|s o s' _ IH Hop Hal E]; [auto|].
  destruct IH as (I & Hid & (j & Hj & Hn) & Hd & Hp).
  destruct (step_ok o s I Hal) as (s2 & E2 & I2 & H2). rewrite E in E2. injection E2 as <-.
  destruct (step_next o s s' I ltac:(lia) Hal E) as (D2 & _ & _ & Hdef). destruct (Hdef Hop) as [(i & Hi & Hnx) Hps].
  split; [exact I2|]. split; [apply H2; [destruct o; cbn in *; tauto|exact Hid]|]. split; [exists (j + i); split; [lia|]; rewrite Hnx, Hn, Hd; ring|].
  split; [congruence|]. intros p Hin. destruct (Hps p Hin) as [Hold|(k & Hk & Eg)].
  - apply in_map_iff in Hold as (q & Eq & Hq). rewrite <- Eq. auto.
  - right. exists (j + k). split; [lia|]. rewrite Eg, Hn, Hd. ring.
Qed.
