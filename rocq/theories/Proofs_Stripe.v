From Verif Require Import Lib Model_Store Spec_Store Model_Group Proofs_Store1 Proofs_Store2 Proofs_Store3 Proofs_Store4 Proofs_Store5 Proofs_Store6 Model_Stripe Spec_Stripe.
From Verif Require Spec_Group Proofs_Group.
From Coq Require Import Permutation ZifyBool ZifyNat.
Local Open Scope Z_scope.

Definition extras (p : part) := (p_evecs p, p_escals p, p_eints p).
Definition kept (f : part -> part) : Prop := forall p, p_type (f p) = p_type p /\ p_gid (f p) = p_gid p /\ extras (f p) = extras p.
(* like agree, and the extra data too *)
Definition agree_x (m m' : list part) : Prop := forall k p', nth_error m' k = Some p' ->
  exists p, nth_error m k = Some p /\ p_type p' = p_type p /\ p_gid p' = p_gid p /\ extras p' = extras p.

Lemma agree_x_particles s m : agree_x (st_mem s) m -> forall p', In p' (particles (set_mem m s)) ->
  exists p, In p (particles s) /\ p_type p' = p_type p /\ p_gid p' = p_gid p /\ extras p' = extras p.
Proof.
  intros Hag p Hp. unfold particles in *. revert Hp. sfields. intros Hp. apply filter_In in Hp as [Hp Ha].
  apply In_firstn_nth in Hp as (k & Hk & Ek). destruct (Hag k p Ek) as (q & Eq & Et & Eg & Ex).
  exists q. split; [|auto]. apply filter_In. split; [|unfold aliveb in *; now rewrite <- Et].
  apply nth_error_In with (n := k). rewrite nth_error_firstn_lt; auto.
Qed.
Lemma map_first_x n f m : kept f -> agree_x m (map_first n f m).
Proof.
  intros H k p' Hp. rewrite map_first_nth in Hp. destruct (nth_error m k) as [p|] eqn:E; [|destruct (k <? n)%nat; discriminate].
  exists p. split; [reflexivity|]. destruct (k <? n)%nat; injection Hp as <-; [apply H|auto].
Qed.
Lemma modify_x id f s s' : kept f -> modify id f s = Some s' -> exists m, s' = set_mem m s /\ agree_x (st_mem s) m.
Proof.
  intros Hf H. unfold modify in H. destruct (id <? 0); [discriminate|]. destruct (nth_error (st_mem s) (Z.to_nat id)) as [p|] eqn:Ep; [|discriminate].
  destruct (write (Z.to_nat id) (f p) (st_mem s)) as [m|] eqn:Ew; [|discriminate]. injection H as <-. exists m. split; [reflexivity|].
  apply write_inv in Ew as (_ & Hl & Hk). intros k q Hq. rewrite Hk in Hq.
  destruct (Nat.eqb_spec k (Z.to_nat id)) as [->|]; [injection Hq as <-; exists p; split; [exact Ep|apply Hf]|eauto].
Qed.

(* what a living particle after a step is *)
Lemma step_data o s s' : inv s -> idinv s -> id_op o -> allowed s o -> step o s = Some s' ->
  forall p', In p' (particles s') -> (exists p, In p (particles s) /\ p_type p' = p_type p /\ p_gid p' = p_gid p /\ extras p' = extras p) \/
    (st_next s <= p_gid p' /\ extras p' = extras (blank s)).
Proof.
  intros I Hid Hop Hal E.
  assert (Hsame : forall p', In p' (particles s) -> exists p, In p (particles s) /\ p_type p' = p_type p /\ p_gid p' = p_gid p /\ extras p' = extras p) by (intros p' Hp; exists p'; auto).
  assert (Hpe : forall s2, Permutation (particles s) (particles s2) -> forall p, In p (particles s2) -> exists q, In q (particles s) /\ p_type p = p_type q /\ p_gid p = p_gid q /\ extras p = extras q).
  { intros s2 HP p Hp. apply Hsame. eapply Permutation_in; [symmetry; exact HP|exact Hp]. }
  destruct o as [n ids|x v sg im t|id| | | |b|k| | |id x|id v|id f|id sg im]; cbn [step allowed id_op] in *; intros p' Hp'.
  - subst ids. destruct (Z.le_gt_cases n 0) as [H0|H0].
    + unfold addParticles in E. destruct (Z.leb_spec n 0); [|lia]. injection E as <-. left. apply Hsame, Hp'.
    + rewrite addParticles_unfold in E by lia. destruct (add_loop (Z.to_nat n) true (grown n s)) as [s2|] eqn:E2; [|discriminate].
      cbn in E. injection E as <-.
      destruct (grown_inv n s H0 I) as (I1 & _ & P1 & S1 & N1 & D1 & B1 & _ & A1 & _).
      destruct (add_loop_inv _ _ _ _ I1 E2) as (I2 & S2 & C2 & D2 & P2 & O2 & A2 & N2 & _).
      rewrite N1, D1, P1 in P2. rewrite P2 in Hp'. apply in_app_or in Hp' as [Hp|Hp]; [left; apply Hsame, Hp|right].
      apply in_map_iff in Hp as (g & <- & Hin). rewrite B1. apply id_seq_in in Hin as (k & Hk & ->). cbn. split; [pose proof (idi_d _ Hid); nia|reflexivity].
  - destruct (addParticle_inv x v sg im t s I Hal) as (s2 & E2 & I2 & P2 & _). rewrite E2 in E. cbn in E. injection E as <-.
    rewrite P2 in Hp'. apply in_app_or in Hp' as [Hp|[<-|[]]]; [left; apply Hsame, Hp|right]. cbn. split; [lia|reflexivity].
  - left. apply Hsame. destruct (mark_spec id s I ltac:(lia) ltac:(unfold st_cap in *; lia)) as (s2 & E2 & I2 & _ & C2 & S2 & N2 & D2 & _ & Hdead & Hlive).
    rewrite E2 in E. injection E as <-. rename Hp' into Hp.
    apply filter_In in Hp as [Hp Ha]. apply In_firstn_nth in Hp as (k & Hk & Ek). rewrite S2 in Hk. apply filter_In. split; [|exact Ha].
    apply nth_error_In with (n := k). rewrite nth_error_firstn_lt by auto.
    destruct (nth_error (st_mem s) (Z.to_nat id)) as [q|] eqn:Eq.
    2:{ rewrite Hdead in Ek; [exact Ek|]. intros r [_ Hr]. congruence. }
    destruct (aliveb q) eqn:Eaq.
    2:{ rewrite Hdead in Ek; [exact Ek|]. intros r [_ Hr] Hr'. apply aliveb_spec in Hr'. congruence. }
    destruct (Nat.lt_ge_cases (Z.to_nat id) (st_size s)) as [Hi|Hi].
    2:{ rewrite Hdead in Ek; [exact Ek|]. intros r [Hr _]. lia. }
    destruct (Hlive q (conj Hi Eq) (proj1 (aliveb_spec q) Eaq)) as (_ & [_ Hm] & _ & Ho).
    destruct (Nat.eq_dec k (Z.to_nat id)) as [->|Hne]; [|rewrite <- Ho by auto; exact Ek].
    rewrite Hm in Ek. injection Ek as <-. discriminate.
  - left. destruct (removal_spec s I Hal) as (s2 & E2 & _ & _ & _ & _ & _ & _ & HP & N2 & D2 & _). rewrite E2 in E. injection E as <-. exact (Hpe _ HP _ Hp').
  - left. destruct (sort_along_spec s I Hal) as (s2 & E2 & (_ & _ & HP & _ & _ & _ & _ & _ & _ & _ & N2 & D2) & _). rewrite E2 in E. injection E as <-. exact (Hpe _ HP _ Hp').
  - left. destruct (sort_spec s I Hal) as (s2 & E2 & (_ & _ & HP & _ & _ & _ & _ & _ & _ & _ & N2 & D2)). rewrite E2 in E. injection E as <-. exact (Hpe _ HP _ Hp').
  - left. unfold removeBadParticles in E. destruct (mark_bad_top s I) as (s1 & Em & I1 & _ & S1 & C1 & N1 & D1 & M).
    rewrite Em in E. set (fl := existsb bad (firstn (st_size s) (st_mem s))) in *.
    assert (Hm : forall p, In p (particles s1) -> In p (particles s)).
    { intros p Hp. apply filter_In in Hp as [Hp Ha]. apply In_firstn_nth in Hp as (k & Hk & Ek).
      destruct (proj1 (M k p) (conj Hk Ek)) as (q & [Hq1 Hq2] & ->). unfold if_bad in *. destruct (bad q && aliveb q) eqn:Eb; [discriminate|].
      apply filter_In. split; [|exact Ha]. apply nth_error_In with (n := k). rewrite nth_error_firstn_lt; auto. }
    destruct (fl && b) eqn:Ef.
    + destruct (doParticleRemoval s1) as [s3|] eqn:E3; [|discriminate]. cbn in E. injection E as <-.
      assert (Hc : can_remove s1).
      { destruct (st_rm s1) as [|a l] eqn:Erm; [now left|]. right.
        destruct (Z.le_gt_cases (st_number s1) 0) as [H0|H0]; [|lia]. exfalso.
        apply andb_true_iff in Ef as [Ef ->]. cbn [allowed] in Hal. destruct Hal as [Hno|(k & p & Hk & Ha & Hb)].
        - unfold fl in Ef. apply existsb_exists in Ef as (p & Hp & Hb). apply In_firstn_nth in Hp as (k & Hk & Ek).
          assert (Hnk : ~ has_nan p) by (apply (Hno k p); split; auto). apply not_has_nan in Hnk. congruence.
        - assert (0 < st_number s1); [|lia]. apply number_pos; [exact I1|]. exists k, p. split; [|exact Ha].
          apply M. exists p. split; [exact Hk|]. unfold if_bad. apply not_has_nan in Hb. rewrite Hb. reflexivity. }
      destruct (removal_spec s1 I1 Hc) as (s4 & E4 & _ & _ & _ & _ & _ & _ & HP & N4 & D4 & _). rewrite E3 in E4. injection E4 as <-.
      apply Hsame, Hm. eapply Permutation_in; [symmetry; exact HP|exact Hp'].
    + cbn in E. injection E as <-. apply Hsame, Hm, Hp'.
  - destruct Hop.
  - injection E as <-. left. unfold clearF in Hp'. eapply agree_x_particles; [|exact Hp']. apply map_first_x. intros p; repeat split.
  - injection E as <-. left. unfold clearV in Hp'. eapply agree_x_particles; [|exact Hp']. apply map_first_x. intros p; repeat split.
  - destruct (modify_x id (set_x x) s s' (fun p => conj eq_refl (conj eq_refl eq_refl)) E) as (m & -> & H). left. eapply agree_x_particles; eassumption.
  - destruct (modify_x id (set_v v) s s' (fun p => conj eq_refl (conj eq_refl eq_refl)) E) as (m & -> & H). left. eapply agree_x_particles; eassumption.
  - destruct (modify_x id (set_f f) s s' (fun p => conj eq_refl (conj eq_refl eq_refl)) E) as (m & -> & H). left. eapply agree_x_particles; eassumption.
  - destruct (modify_x id (set_sgim sg im) s s' (fun p => conj eq_refl (conj eq_refl eq_refl)) E) as (m & -> & H). left. eapply agree_x_particles; eassumption.
Qed.

(* ---------- the runs ---------- *)
Lemma same_id s p q : idinv s -> In p (particles s) -> In q (particles s) -> p_gid p = p_gid q -> p = q.
Proof.
  intros Hid Hp Hq E. pose proof (exact_of_ids _ (idi_ok _ Hid)) as L.
  apply filter_In in Hp as [Hp Pa]. apply In_firstn_nth in Hp as (k & Hk & Ek). apply filter_In in Hq as [Hq Qa]. apply In_firstn_nth in Hq as (j & Hj & Ej).
  assert (A : getLocalID (p_gid p) s = Z.of_nat k) by (apply L; exists p; split; [split; assumption|split; [apply aliveb_spec, Pa|reflexivity]]).
  assert (B : getLocalID (p_gid p) s = Z.of_nat j) by (apply L; exists q; split; [split; assumption|split; [apply aliveb_spec, Qa|symmetry; exact E]]).
  assert (k = j) by lia. subst j. congruence.
Qed.
Lemma fresh_particles s p : idinv s -> In p (particles s) -> p_gid p < st_next s.
Proof. intros Hid Hp. apply filter_In in Hp as [Hp _]. apply In_firstn_nth in Hp as (k & Hk & Ek). apply (idi_fresh _ Hid k p). split; assumption. Qed.
Lemma stripe_put e h p : has_stripe e p = true -> stripe_of e (put_stripe e h p) = h.
Proof.
  intros H. apply andb_prop in H as [_ H]. apply Nat.ltb_lt in H. unfold stripe_of, put_stripe. cbn [p_escals].
  rewrite app_nth2; rewrite firstn_length_le by lia; [|lia]. rewrite Nat.sub_diag. reflexivity.
Qed.
Lemma extras_stripe e p q : extras p = extras q -> stripe_of e p = stripe_of e q.
Proof. intros E. unfold extras in E. injection E as _ E _. unfold stripe_of. now rewrite E. Qed.
Lemma stripe_blank e s p : extras p = extras (blank s) -> stripe_of e p = Some 0%Q.
Proof. intros E. rewrite (extras_stripe e p (blank s) E). unfold stripe_of. cbn [blank p_escals]. apply nth_repeat. Qed.

Lemma pre_spec e s s' : inv s -> idinv s -> stripe_pre e s = Some s' -> inv s' /\ idinv s' /\ st_next s' = st_next s /\
  forall p', In p' (particles s') -> exists p, In p (particles s) /\ p_gid p' = p_gid p /\ stripe_of e p' = height p.
Proof.
  intros I Hid E. unfold stripe_pre in E. destruct (forallb (has_stripe e) (firstn (st_size s) (st_mem s))) eqn:F; [|discriminate]. injection E as <-.
  assert (Hag : agree (st_mem s) (map_first (st_size s) (fun p => put_stripe e (nth 1 (p_x p) None) p) (st_mem s))) by (apply map_first_agree; intros p; split; reflexivity).
  destruct (agree_inv s _ Hag I) as [A B]. split; [exact A|]. split; [exact (B Hid)|]. split; [reflexivity|].
  intros p' Hp. unfold particles in Hp. revert Hp. sfields. intros Hp. apply filter_In in Hp as [Hp Ha].
  apply In_firstn_nth in Hp as (k & Hk & Ek). rewrite map_first_nth in Ek. replace (k <? st_size s)%nat with true in Ek by (symmetry; apply Nat.ltb_lt, Hk).
  destruct (nth_error (st_mem s) k) as [p|] eqn:E; [|discriminate]. injection Ek as <-.
  assert (Hin : In p (firstn (st_size s) (st_mem s))) by (apply nth_error_In with (n := k); rewrite nth_error_firstn_lt; auto).
  exists p. split; [apply filter_In; split; [exact Hin|exact Ha]|]. split; [reflexivity|]. apply stripe_put. rewrite forallb_forall in F. apply F, Hin.
Qed.

Definition logged (e : nat) (s : store) (log : list entry) : Prop :=
  (forall en, In en log -> snd (fst en) <= st_next s) /\
  forall p, In p (particles s) -> (exists en, In en log /\ fst (fst en) <= p_gid p < snd (fst en)) /\
    forall en, In en log -> fst (fst en) <= p_gid p < snd (fst en) -> stripe_of e p = snd en.
Lemma logged_pre e s s' : inv s -> idinv s -> stripe_pre e s = Some s' -> logged e s' (map (fun p => (p_gid p, p_gid p + 1, height p)) (particles s)).
Proof.
  intros I Hid E. destruct (pre_spec e s s' I Hid E) as (_ & _ & N & H). split.
  - intros en Hen. apply in_map_iff in Hen as (p & <- & Hp). cbn. rewrite N. pose proof (fresh_particles s p Hid Hp). lia.
  - intros p' Hp'. destruct (H p' Hp') as (p & Hp & Eg & Es). split.
    + exists (p_gid p, p_gid p + 1, height p). split; [apply in_map_iff; exists p; auto|]. cbn. lia.
    + intros en Hen Hc. apply in_map_iff in Hen as (q & <- & Hq). cbn in *. rewrite (same_id s q p Hid Hq Hp) by lia. exact Es.
Qed.
Lemma logged_step e s log s' h : idinv s' -> st_next s <= st_next s' -> logged e s log ->
  (forall p', In p' (particles s') -> (exists p, In p (particles s) /\ p_gid p' = p_gid p /\ stripe_of e p' = stripe_of e p /\ p_gid p < st_next s) \/
     (st_next s <= p_gid p' /\ stripe_of e p' = h)) -> logged e s' ((st_next s, st_next s', h) :: log).
Proof.
  intros Hid Hn (A & B) H. split.
  - intros en [<-|Hen]; [cbn; lia|]. specialize (A en Hen). lia.
  - intros p' Hp'. pose proof (fresh_particles s' p' Hid Hp') as Hf. destruct (H p' Hp') as [(p & Hp & Eg & Es & Hlt)|(Hg & Es)].
    + destruct (B p Hp) as ((en & Hen & Hc) & C). split; [exists en; split; [right; exact Hen|rewrite Eg; exact Hc]|].
      intros en' [<-|Hen'] Hc'; [cbn in Hc'; lia|]. rewrite Es. apply (C en' Hen'). rewrite <- Eg. exact Hc'.
    + split; [exists (st_next s, st_next s', h); split; [left; reflexivity|cbn; lia]|].
      intros en' [<-|Hen'] Hc'; [exact Es|]. specialize (A en' Hen'). lia.
Qed.

Lemma put_kept e h : forall p, p_type (put_stripe e h p) = p_type p /\ p_gid (put_stripe e h p) = p_gid p.
Proof. intros p. split; reflexivity. Qed.
Lemma add_striped_spec e x v sg im t s s' : inv s -> idinv s -> 0 <= t -> add_striped e x v sg im t s = Some s' ->
  inv s' /\ idinv s' /\ st_next s <= st_next s' /\
  forall p', In p' (particles s') -> In p' (particles s) \/ (p_gid p' = st_next s /\ stripe_of e p' = nth 1 x None).
Proof.
  intros I Hid Ht E. unfold add_striped in E.
  destruct (addParticle_inv x v sg im t s I Ht) as (s1 & E1 & I1 & P1 & A1 & S1 & K1 & N1 & D1 & Hid1). rewrite E1 in E.
  destruct ((1 <? length x)%nat && (e <? st_nes s)%nat) eqn:F; [|discriminate]. apply andb_prop in F as [_ F]. apply Nat.ltb_lt in F.
  specialize (Hid1 Hid). 
  destruct (modify_spec (Z.of_nat (st_size s)) (put_stripe e (nth 1 x None)) s1 I1 (put_kept e _)) as (s2 & E2 & I2 & Hid2 & (m & Em)); [lia|pose proof (inv_size _ I1); lia|].
  rewrite E in E2. injection E2 as <-. split; [exact I2|]. split; [exact (Hid2 Hid1)|]. split; [rewrite Em; sfields; pose proof (idi_d _ Hid); lia|].
  unfold modify in E. replace (Z.of_nat (st_size s) <? 0) with false in E by (symmetry; apply Z.ltb_ge; lia). rewrite Nat2Z.id in E.
  destruct A1 as (A1a & A1b). rewrite A1b in E. destruct (write (st_size s) (put_stripe e (nth 1 x None) (new_full s x v sg im t)) (st_mem s1)) as [m'|] eqn:Ew; [|discriminate].
  injection E as <-. apply write_inv in Ew as (_ & _ & Hk). clear Em m.
  intros p' Hp'. unfold particles in Hp'. revert Hp'. sfields. intros Hp'. apply filter_In in Hp' as [Hp' Ha].
  apply In_firstn_nth in Hp' as (k & Hk' & Ek). rewrite Hk in Ek. destruct (Nat.eqb_spec k (st_size s)) as [->|Ne].
  - injection Ek as <-. right. split; [reflexivity|]. unfold stripe_of, put_stripe. cbn [p_escals new_full blank].
    rewrite app_nth2; rewrite firstn_length_le by (rewrite repeat_length; lia); [|lia]. rewrite Nat.sub_diag. reflexivity.
  - left. assert (Hin : In p' (particles s1)).
    { apply filter_In. split; [|exact Ha]. apply nth_error_In with (n := k). rewrite nth_error_firstn_lt; auto. }
    rewrite P1 in Hin. apply in_app_or in Hin as [Hin|[Eq|[]]]; [exact Hin|].
    exfalso. apply Ne. pose proof (exact_of_ids _ (idi_ok _ Hid1)) as L.
    assert (B1 : getLocalID (p_gid p') s1 = Z.of_nat k) by (apply L; exists p'; split; [split; assumption|split; [apply aliveb_spec, Ha|reflexivity]]).
    assert (B2 : getLocalID (p_gid p') s1 = Z.of_nat (st_size s)).
    { apply L. exists (new_full s x v sg im t). split; [split; assumption|]. rewrite <- Eq in Ha. split; [apply aliveb_spec, Ha|now rewrite Eq]. }
    lia.
Qed.

Lemma striped_ok dims nev nes nei e s log : striped dims nev nes nei e s log -> inv s /\ idinv s /\ logged e s log.
Proof.
  induction 1 as [s0 s1 Hr E|s log o s' H (I & Hid & HL) Hop Hal E|s log H IH|s log x v sg im t s' H (I & Hid & HL) Ht E|s log s' H (I & Hid & HL) E].
  - destruct (empty_inv dims nev nes nei) as [I0 H0]. destruct (reach_ids_inv _ _ I0 H0 Hr) as [I Hid].
    destruct (pre_spec e s0 s1 I Hid E) as (I1 & Hid1 & _). split; [exact I1|]. split; [exact Hid1|]. apply logged_pre; assumption.
  - destruct (step_ok o s I Hal) as (s2 & E2 & I2 & Hid2). rewrite E in E2. injection E2 as <-. specialize (Hid2 Hop Hid).
    destruct (Proofs_Group.step_lives o s s' I Hid Hop Hal E) as [Hn _].
    split; [exact I2|]. split; [exact Hid2|]. apply logged_step; [exact Hid2|exact Hn|exact HL|]. intros p' Hp'.
    destruct (step_data o s s' I Hid Hop Hal E p' Hp') as [(p & Hp & _ & Eg & Ex)|(Hg & Ex)].
    + left. exists p. split; [exact Hp|]. split; [exact Eg|]. split; [apply extras_stripe, Ex|apply fresh_particles; assumption].
    + right. split; [exact Hg|]. eapply stripe_blank, Ex.
  - exact IH.
  - destruct (add_striped_spec e x v sg im t s s' I Hid Ht E) as (I2 & Hid2 & Hn & H2).
    split; [exact I2|]. split; [exact Hid2|]. apply logged_step; [exact Hid2|exact Hn|exact HL|]. intros p' Hp'.
    destruct (H2 p' Hp') as [Hp|(Eg & Es)]; [left|right; split; [lia|exact Es]].
    exists p'. split; [exact Hp|]. split; [reflexivity|]. split; [reflexivity|]. apply fresh_particles; assumption.
  - destruct (pre_spec e s s' I Hid E) as (I1 & Hid1 & _). split; [exact I1|]. split; [exact Hid1|]. apply logged_pre; assumption.
Qed.
