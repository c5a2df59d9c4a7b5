From Verif Require Import Lib Model_Store Spec_Store Proofs_Store1 Proofs_Store2 Proofs_Store3 Proofs_Store4 Proofs_Store5
  Proofs_Store6 Model_Group Spec_Group.
From Coq Require Import Permutation ZifyBool ZifyNat.
Local Open Scope Z_scope.

Lemma zput_app l1 a b l2 : zput (length l1) a (l1 ++ b :: l2) = Some (l1 ++ a :: l2).
Proof. induction l1 as [|x l1 IH]; cbn; [reflexivity|]. rewrite IH. reflexivity. Qed.

(* The state of the loop: c entries done, what lies between c and i is junk *)
Lemma update_loop_spec lookup rest : forall doneg donel junkg restl,
  length donel = length doneg -> length restl = (length junkg + length rest)%nat ->
  exists jg jl, update_loop lookup (length rest) (length doneg + length junkg) (length doneg) (doneg ++ junkg ++ rest) (donel ++ restl) =
    Some (length doneg + length (filter (fun k => (-1 <? lookup k)%Z) rest),
          (doneg ++ filter (fun k => (-1 <? lookup k)%Z) rest) ++ jg, (donel ++ map lookup (filter (fun k => (-1 <? lookup k)%Z) rest)) ++ jl)%nat.
Proof.
  induction rest as [|k rest IH]; intros doneg donel junkg restl Hl Hr.
  - cbn. exists (junkg ++ []), restl. rewrite Nat.add_0_r, !app_nil_r. reflexivity.
  - cbn [update_loop length]. rewrite app_assoc, nth_error_app2 by (rewrite app_length; lia).
    rewrite app_length, Nat.sub_diag. cbn [nth_error]. cbn zeta. cbn [filter]. destruct (-1 <? lookup k) eqn:E.
    + cbn [length] in Hr. destruct restl as [|r restl]; [cbn in Hr; lia|]. replace (zput (length doneg) (lookup k) (donel ++ r :: restl)) with (Some (donel ++ lookup k :: restl)) by (rewrite <- Hl; symmetry; apply zput_app).
      assert (exists x junk', (doneg ++ junkg) ++ k :: rest = doneg ++ x :: junk' ++ rest /\ length junk' = length junkg) as (x & junk' & Ej & Lj).
      { rewrite <- app_assoc. destruct junkg as [|y j]; [exists k, []; auto|]. exists y, (j ++ [k]). cbn.
        rewrite <- app_assoc. split; [reflexivity|rewrite app_length; cbn; lia]. }
      rewrite Ej, zput_app.
      destruct (IH (doneg ++ [k]) (donel ++ [lookup k]) junk' restl) as (jg & jl & H); [rewrite !app_length; cbn; lia|cbn in Hr; lia|].
      exists jg, jl. rewrite !app_length in H. cbn [length] in H. rewrite <- !app_assoc in H. cbn [app] in H.
      rewrite <- !app_assoc. cbn [app map]. rewrite <- Lj.
      replace (S (length doneg + length junk')) with (length doneg + 1 + length junk')%nat by lia.
      replace (S (length doneg)) with (length doneg + 1)%nat by lia.
      etransitivity; [exact H|]. f_equal. f_equal. f_equal. cbn. lia.
    + destruct (IH doneg donel (junkg ++ [k]) restl) as (jg & jl & H); [exact Hl|rewrite app_length; cbn in *; lia|].
      exists jg, jl. rewrite app_length in H. cbn [length] in H. rewrite <- !app_assoc in H. cbn [app] in H.
      rewrite <- !app_assoc. replace (S (length doneg + length junkg)) with (length doneg + (length junkg + 1))%nat by lia. exact H.
Qed.

Definition paired (g : group) : Prop := length (g_lids g) = length (g_gids g).

Lemma zresize_app l j : zresize (length l) (l ++ j) = l.
Proof.
  unfold zresize. rewrite firstn_app, firstn_all, Nat.sub_diag. cbn. rewrite app_nil_r, app_length.
  replace (length l - (length l + length j))%nat with 0%nat by lia. cbn. apply app_nil_r.
Qed.

Lemma update_spec s g : g_bound g = true -> paired g ->
  update_local_ids s g = Some (mkGroup (filter (fun k => -1 <? getLocalID k s) (g_gids g))
    (map (fun k => getLocalID k s) (filter (fun k => -1 <? getLocalID k s) (g_gids g))) true).
Proof.
  intros Hb Hp. unfold update_local_ids, group_size. rewrite Hb.
  destruct (update_loop_spec (fun k => getLocalID k s) (g_gids g) [] [] [] (g_lids g) eq_refl Hp) as (jg & jl & H).
  cbn [app length Nat.add] in H. rewrite H. rewrite zresize_app. f_equal. f_equal.
  replace (length (filter (fun k => -1 <? getLocalID k s) (g_gids g))) with (length (map (fun k => getLocalID k s) (filter (fun k => -1 <? getLocalID k s) (g_gids g)))) by apply map_length.
  apply zresize_app.
Qed.

Lemma lives_iff s k : lives s k <-> In k (map p_gid (particles s)).
Proof.
  unfold lives, lives_at, particles. rewrite in_map_iff. split.
  - intros (l & p & [Hl E] & Ha & Hg). exists p. split; [exact Hg|]. apply filter_In. split; [|now apply aliveb_spec].
    apply nth_error_In with (n := l). rewrite nth_error_firstn_lt; auto.
  - intros (p & Hg & Hin). apply filter_In in Hin as [Hin Ha]. apply In_firstn_nth in Hin as (l & Hl & E). exists l, p.
    split; [split; auto|]. split; [now apply aliveb_spec|exact Hg].
Qed.
Lemma livesb_spec s k : livesb s k = true <-> lives s k.
Proof.
  unfold livesb. rewrite existsb_exists. rewrite lives_iff. unfold particles. rewrite in_map_iff. split.
  - intros (p & Hin & H). apply andb_true_iff in H as [Ha Hg]. exists p. split; [lia|]. apply filter_In. auto.
  - intros (p & Hg & Hin). apply filter_In in Hin as [Hin Ha]. exists p. split; [exact Hin|]. rewrite Ha. cbn. lia.
Qed.
Lemma lookup_livesb s k : lookup_exact s -> (-1 <? getLocalID k s) = livesb s k.
Proof.
  intros He. apply eq_true_iff_eq. rewrite livesb_spec. destruct (He k 0%nat) as (_ & H2 & H3). split.
  - intros H. destruct H3 as [H3|[l Hl]]; [lia|]. exists l. destruct (He k l) as [H1 _]. now apply H1.
  - intros [l Hl]. destruct (He k l) as [H1 _]. apply H1 in Hl. lia.
Qed.

(* After an update the group holds exactly the members that live. *)
Lemma update_holds s g : lookup_exact s -> g_bound g = true -> paired g ->
  exists g', update_local_ids s g = Some g' /\ holds s g' (filter (livesb s) (g_gids g)) /\ g_bound g' = true /\ paired g'.
Proof.
  intros He Hb Hp. rewrite update_spec by auto. eexists. split; [reflexivity|]. split; [|split; [reflexivity|unfold paired; cbn; apply map_length]].
  split; cbn [g_gids g_lids]; [apply filter_ext; intros k; now apply lookup_livesb|].
  rewrite (filter_ext _ _ (fun k => lookup_livesb s k He)).
  assert (H : forall k, In k (filter (livesb s) (g_gids g)) -> exists l, getLocalID k s = Z.of_nat l /\ lives_at s k l).
  { intros k Hk. apply filter_In in Hk as [_ Hk]. apply livesb_spec in Hk as [l Hl]. exists l. split; [|exact Hl].
    destruct (He k l) as [H1 _]. now apply H1. }
  induction (filter (livesb s) (g_gids g)) as [|k ks IH]; cbn; constructor; [apply H; now left|apply IH; intros; apply H; now right].
Qed.

(* What a step on the store does to the set of living ids *)
Lemma step_lives o s s' : inv s -> idinv s -> id_op o -> allowed s o -> step o s = Some s' ->
  st_next s <= st_next s' /\ forall k, lives s' k -> lives s k \/ st_next s <= k.
Proof.
  intros I Hid Hop Hal E. destruct (step_next o s s' I (idi_d _ Hid) Hal E) as (_ & Hn & _ & Hdef). split; [exact Hn|].
  intros k Hk. rewrite lives_iff in *.
  destruct o as [n ids|x v sg im t|id| | | |b|j| | |id x|id v|id f|id sg im]; try (destruct (Hdef Hop) as [_ Hd]; apply in_map_iff in Hk as (p & <- & Hp); destruct (Hd p Hp) as [H|(j & Hj & ->)]; [now left|right; pose proof (idi_d _ Hid); nia]).
  2:{ destruct Hop. }
  destruct (addParticle_inv x v sg im t s I Hal) as (s2 & E2 & _ & P2 & _). cbn [step] in E. rewrite E2 in E. cbn in E. injection E as <-.
  rewrite P2, map_app in Hk. apply in_app_or in Hk as [Hk|[<-|[]]]; [now left|right]. cbn. lia.
Qed.

Lemma filter_filter {A} (f g : A -> bool) l : filter f (filter g l) = filter (fun a => g a && f a) l.
Proof. induction l as [|a l IH]; cbn; [reflexivity|]. destruct (g a); cbn; [destruct (f a); cbn; now rewrite IH|exact IH]. Qed.
Lemma filter_ext_In' {A} (f g : A -> bool) l : (forall a, In a l -> f a = g a) -> filter f l = filter g l.
Proof. intros H. induction l as [|a l IH]; cbn; [reflexivity|]. rewrite (H a (or_introl eq_refl)), IH; auto. intros b Hb; apply H; now right. Qed.

(* The invariant of a history: the group's ids are those members that live, or lived at the last update *)
Lemma history_inv s0 g0 s g : history (s0, g0) (s, g) -> inv s0 -> idinv s0 -> g_bound g0 = true -> paired g0 ->
  (forall k, In k (g_gids g0) -> k < st_next s0) ->
  inv s /\ idinv s /\ st_next s0 <= st_next s /\ g_bound g = true /\ paired g /\
  exists f, g_gids g = filter f (g_gids g0) /\ forall k, In k (g_gids g0) -> lives s k -> f k = true.
Proof.
  intros H I0 Hid0 Hb0 Hp0 Hlt. remember (s0, g0) as c0 eqn:E0. remember (s, g) as c eqn:E1.
  revert s g E1. induction H as [c|c s1 g1 o s2 H IH Hop Hal Hst|c s1 g1 g2 H IH Hup]; intros s g E1; subst.
  - injection E1 as <- <-. split; [exact I0|]. split; [exact Hid0|]. split; [lia|]. split; [exact Hb0|]. split; [exact Hp0|].
    exists (fun _ => true). split; [|auto]. symmetry. apply filter_all. auto.
  - injection E1 as <- <-. destruct (IH eq_refl s1 g1 eq_refl) as (I1 & Hid1 & Hn1 & Hb1 & Hp1 & f & Hf & Hl).
    destruct (step_ok o s1 I1 Hal) as (s2' & Hs2 & I2 & Hi2). rewrite Hst in Hs2. injection Hs2 as <-.
    destruct (step_lives o s1 s2 I1 Hid1 Hop Hal Hst) as [Hn2 Hl2].
    split; [exact I2|]. split; [auto|]. split; [lia|]. split; [auto|]. split; [auto|]. exists f. split; [exact Hf|].
    intros k Hk Hlk. destruct (Hl2 k Hlk) as [H1|H1]; [auto|]. exfalso. specialize (Hlt k Hk). lia.
  - injection E1 as <- <-. destruct (IH eq_refl s1 g1 eq_refl) as (I1 & Hid1 & Hn1 & Hb1 & Hp1 & f & Hf & Hl).
    destruct (update_holds s1 g1 (exact_of_ids _ (idi_ok _ Hid1)) Hb1 Hp1) as (g' & Eu & [Hg _] & Hb' & Hp'). rewrite Hup in Eu. injection Eu as <-.
    split; [exact I1|]. split; [exact Hid1|]. split; [exact Hn1|]. split; [exact Hb'|]. split; [exact Hp'|].
    exists (fun k => f k && livesb s1 k). rewrite Hg, Hf, filter_filter. split; [reflexivity|].
    intros k Hk Hlk. rewrite (Hl k Hk Hlk). cbn. now apply livesb_spec.
Qed.

Lemma history_update s0 g0 s g : history (s0, g0) (s, g) -> inv s0 -> idinv s0 -> g_bound g0 = true -> paired g0 ->
  (forall k, In k (g_gids g0) -> k < st_next s0) ->
  exists g', update_local_ids s g = Some g' /\ holds s g' (filter (livesb s) (g_gids g0)).
Proof.
  intros H I0 Hid0 Hb0 Hp0 Hlt. destruct (history_inv _ _ _ _ H I0 Hid0 Hb0 Hp0 Hlt) as (I & Hid & _ & Hb & Hp & f & Hf & Hl).
  destruct (update_holds s g (exact_of_ids _ (idi_ok _ Hid)) Hb Hp) as (g' & Eu & Hh & _). exists g'. split; [exact Eu|].
  rewrite Hf, filter_filter in Hh. rewrite (filter_ext_In' (livesb s) (fun a => f a && livesb s a)); [exact Hh|].
  intros k Hk. destruct (livesb s k) eqn:El; [|now rewrite andb_false_r]. rewrite (Hl k Hk); [reflexivity|]. now apply livesb_spec.
Qed.

Lemma made_of_spec ids : g_gids (made_of ids) = ids /\ g_lids (made_of ids) = ids /\ g_bound (made_of ids) = true.
Proof.
  unfold made_of. assert (H : forall l g, g_gids (fold_left (fun g id => group_add id g) l g) = g_gids g ++ l /\
    g_lids (fold_left (fun g id => group_add id g) l g) = g_lids g ++ l /\ g_bound (fold_left (fun g id => group_add id g) l g) = g_bound g).
  { induction l as [|a l IH]; intros g; cbn; [rewrite !app_nil_r; auto|]. destruct (IH (group_add a g)) as (H1 & H2 & H3).
    rewrite H1, H2, H3. cbn. rewrite <- !app_assoc. auto. }
  apply H.
Qed.

Lemma lives_lt s k : idinv s -> lives s k -> k < st_next s.
Proof. intros Hid (l & p & Ha & _ & <-). exact (idi_fresh _ Hid l p Ha). Qed.

Lemma update_paired s g g' : paired g -> update_local_ids s g = Some g' -> paired g'.
Proof.
  intros Hp H. destruct (g_bound g) eqn:Hb.
  - rewrite update_spec in H by auto. injection H as <-. unfold paired. cbn. apply map_length.
  - unfold update_local_ids in H. rewrite Hb in H. destruct (g_gids g) eqn:E; [|discriminate]. injection H as <-. reflexivity.
Qed.

(* The needs-remake flag: an operation after which it is not set left every particle that is still alive where it was. *)
Lemma step_entries o s s' : inv s -> idinv s -> id_op o -> allowed s o -> step o s = Some s' -> st_remake s' = false ->
  forall j p', at_ s' j p' -> alive p' -> (exists p, at_ s j p /\ p_gid p = p_gid p') \/ st_next s <= p_gid p'.
Proof.
  intros I Hid Hop Hal E Hf.
  assert (Hag : forall m, s' = set_mem m s -> agree (st_mem s) m -> forall j p', at_ s' j p' -> alive p' ->
     (exists p, at_ s j p /\ p_gid p = p_gid p') \/ st_next s <= p_gid p').
  { intros m -> Hm j p' [Hj Ej] _. destruct (agree_back _ _ Hm j p' Ej) as (q & Eq & _ & Eg). left. exists q. split; [split; auto|auto]. }
  assert (Hmod : forall id f, (forall p, p_type (f p) = p_type p /\ p_gid (f p) = p_gid p) -> modify id f s = Some s' ->
     exists m, s' = set_mem m s /\ agree (st_mem s) m).
  { intros id f Hff H. unfold modify in H. destruct (id <? 0); [discriminate|]. destruct (nth_error (st_mem s) (Z.to_nat id)) as [p|] eqn:Ep; [|discriminate].
    destruct (write (Z.to_nat id) (f p) (st_mem s)) as [m|] eqn:Ew; [|discriminate]. injection H as <-. exists m. split; [reflexivity|].
    apply write_inv in Ew as (_ & Hl & Hk). split; [exact Hl|]. intros k q Hq. rewrite Hk.
    destruct (Nat.eqb_spec k (Z.to_nat id)) as [->|]; [|eauto]. rewrite Ep in Hq. injection Hq as <-. eexists. split; [reflexivity|]. apply Hff. }
  destruct o as [n ids|x v sg im t|id| | | |b|jj| | |id x|id v|id f|id sg im]; cbn [step id_op allowed] in *.
  - subst ids. destruct (Z.le_gt_cases n 0) as [H0|H0].
    + unfold addParticles in E. destruct (Z.leb_spec n 0); [|lia]. injection E as <-. intros j p' Hj _. left. eauto.
    + rewrite addParticles_unfold in E by lia. destruct (add_loop (Z.to_nat n) true (grown n s)) as [s3|] eqn:E3; [|discriminate].
      cbn in E. injection E as <-. destruct (grown_inv n s H0 I) as (I1 & _ & P1 & S1 & N1 & D1 & B1 & _ & A1 & _).
      destruct (add_loop_inv _ _ _ _ I1 E3) as (_ & S2 & _ & _ & _ & O2 & A2 & N2 & _).
      intros j p' [Hj Ej] _. destruct (Nat.lt_ge_cases j (st_size s)) as [Hjs|Hjs].
      * destruct (nth_error_ex (st_mem s) j) as [p Ep]; [pose proof (inv_size _ I); unfold st_cap in *; lia|].
        left. exists p. split; [split; auto|]. destruct (O2 j p (A1 j p (conj Hjs Ep))) as [_ X]. congruence.
      * right. destruct (nth_error (id_seq (Z.to_nat n) (st_next (grown n s)) (st_d (grown n s))) (j - st_size s)) as [g|] eqn:Eg.
        -- pose proof (A2 _ _ Eg) as [_ Hat]. rewrite S1 in Hat. replace (st_size s + (j - st_size s))%nat with j in Hat by lia.
           rewrite Ej in Hat. injection Hat as ->. cbn. apply nth_error_In in Eg. apply id_seq_in in Eg as (z & Hz & ->).
           rewrite N1, D1 in *. pose proof (idi_d _ Hid). nia.
        -- apply nth_error_None in Eg. rewrite id_seq_len in Eg. lia.
  - destruct (addParticle_inv x v sg im t s I Hal) as (s3 & E3 & _ & _ & A3 & S3 & O3 & _). rewrite E3 in E. cbn in E. injection E as <-.
    intros j p' [Hj Ej] _. destruct (Nat.lt_ge_cases j (st_size s)) as [Hjs|Hjs].
    + destruct (nth_error_ex (st_mem s) j) as [p Ep]; [pose proof (inv_size _ I); unfold st_cap in *; lia|].
      left. exists p. split; [split; auto|]. 
      assert (X : nth_error (st_mem s3) j = Some p) by (destruct (O3 j p (conj Hjs Ep)); assumption). congruence.
    + right. assert (j = st_size s) by lia. subst j. destruct A3 as [_ A3]. rewrite Ej in A3. injection A3 as ->. cbn. lia.
  - unfold markForRemoval in E. destruct (id <? 0); [discriminate|]. destruct (nth_error (st_mem s) (Z.to_nat id)) as [p|] eqn:Ep; [|discriminate].
    destruct ((p_type p <? 0) || _); [injection E as <-; intros j p' Hj _; left; eauto|].
    destruct (write _ _ _) as [m|] eqn:Ew; [|discriminate]. injection E as <-. apply write_inv in Ew as (_ & _ & Hk).
    intros j p' [Hj Ej] _. cbn in Hj, Ej. rewrite Hk in Ej. left. destruct (Nat.eqb_spec j (Z.to_nat id)) as [->|].
    + injection Ej as <-. exists p. split; [split; auto|reflexivity].
    + exists p'. split; [split; auto|reflexivity].
  - destruct (removal_spec s I Hal) as (s3 & E3 & I3 & _ & S3 & N3 & _ & _ & _ & _ & _ & _ & _ & _ & _ & _ & R3 & _). rewrite E in E3. injection E3 as <-.
    destruct R3 as [R3|R3]; [congruence|]. intros j p' [Hj Ej] _. left. exists p'. split; [|reflexivity]. split; [|rewrite <- R3; auto].
    pose proof (inv_number _ I). unfold count in *.
    assert (X : forall (f : part -> bool) l, (length (filter f l) <= length l)%nat). { intros f l. induction l as [|a l IH]; cbn; [lia|]. destruct (f a); cbn; lia. }
    specialize (X aliveb (firstn (st_size s) (st_mem s))). rewrite firstn_length in X. lia.
  - exfalso. destruct (sort_along_spec s I Hal) as (s3 & E3 & (_ & _ & _ & _ & _ & _ & _ & _ & R3 & _) & _). rewrite E in E3. injection E3 as <-. congruence.
  - exfalso. destruct (sort_spec s I Hal) as (s3 & E3 & (_ & _ & _ & _ & _ & _ & _ & _ & R3 & _)). rewrite E in E3. injection E3 as <-. congruence.
  - unfold removeBadParticles in E. destruct (mark_bad_top s I) as (s1 & Em & I1 & _ & S1 & C1 & N1 & D1 & M). rewrite Em in E.
    destruct (_ && b) eqn:Ef.
    + destruct (doParticleRemoval s1) as [s3|]; [|discriminate]. cbn in E. injection E as <-. cbn in Hf. discriminate.
    + cbn in E. injection E as <-. intros j p' Hj _. apply M in Hj as (q & Hq & ->). left. exists q. split; [exact Hq|].
      unfold if_bad. destruct (bad q && aliveb q); reflexivity.
  - destruct Hop.
  - injection E as <-. eapply Hag; [reflexivity|]. apply map_first_agree. auto.
  - injection E as <-. eapply Hag; [reflexivity|]. apply map_first_agree. auto.
  - destruct (Hmod id (set_x x) ltac:(auto) E) as (m & -> & Hm). eapply Hag; [reflexivity|exact Hm].
  - destruct (Hmod id (set_v v) ltac:(auto) E) as (m & -> & Hm). eapply Hag; [reflexivity|exact Hm].
  - destruct (Hmod id (set_f f) ltac:(auto) E) as (m & -> & Hm). eapply Hag; [reflexivity|exact Hm].
  - destruct (Hmod id (set_sgim sg im) ltac:(auto) E) as (m & -> & Hm). eapply Hag; [reflexivity|exact Hm].
Qed.

Lemma step_addr o s s' : inv s -> idinv s -> id_op o -> allowed s o -> step o s = Some s' -> st_remake s' = false ->
  forall k l, lives_at s k l -> lives s' k -> lives_at s' k l.
Proof.
  intros I Hid Hop Hal E Hf k l Hl (j & p' & Hj & Ha' & Hg').
  destruct (step_entries o s s' I Hid Hop Hal E Hf j p' Hj Ha') as [(p & [Hp1 Hp2] & Hg)|Hn].
  - destruct Hl as (q & [Hlq Eq] & Haq & Hgq).
    assert (j = l) by (apply (ids_unique _ _ _ (idi_ok _ Hid) j l p q); auto; congruence). subst j. exists p'. auto.
  - exfalso. pose proof (lives_lt s k Hid (ex_intro _ l Hl)). lia.
Qed.

Lemma Forall2_weaken {A B} (P Q : A -> B -> Prop) l l' : (forall a b, P a b -> Q a b) -> Forall2 P l l' -> Forall2 Q l l'.
Proof. intros H. induction 1; constructor; auto. Qed.
Definition right (s : store) (gid lid : Z) : Prop := forall l, lives_at s gid l -> lid = Z.of_nat l.
Lemma lives_unique s k l l' : lookup_exact s -> lives_at s k l -> lives_at s k l' -> l = l'.
Proof. intros He H H'. destruct (He k l) as [H1 _]. destruct (He k l') as [H2 _]. apply H1 in H. apply H2 in H'. lia. Qed.
Lemma lazily_inv s0 g0 s g : lazily (s0, g0) (s, g) -> inv s0 -> idinv s0 -> g_bound g0 = true -> paired g0 ->
  (forall k, In k (g_gids g0) -> k < st_next s0) -> Forall2 (right s0) (g_gids g0) (g_lids g0) ->
  inv s /\ idinv s /\ st_next s0 <= st_next s /\ g_bound g = true /\ paired g /\ incl (g_gids g) (g_gids g0) /\
  (forall k, In k (g_gids g0) -> lives s k -> In k (g_gids g)) /\ Forall2 (right s) (g_gids g) (g_lids g).
Proof.
  intros H I0 Hid0 Hb0 Hp0 Hlt0 Hr0. remember (s0, g0) as c eqn:Ec. remember (s, g) as c' eqn:Ec'. revert s g Ec'.
  induction H as [c|c s1 g1 o s' g' H IH Hop Hal E Eu|c s1 g1 b H IH]; intros s g Ec'.
  - subst c. injection Ec' as <- <-. split; [exact I0|]. split; [exact Hid0|]. split; [lia|]. split; [exact Hb0|]. split; [exact Hp0|]. split; [apply incl_refl|]. split; [auto|exact Hr0].
  - injection Ec' as -> ->. destruct (IH Ec s1 g1 eq_refl) as (I & Hid & Hn & Hb & Hp & Hi & Hl & Hr).
    destruct (step_lives o s1 s I Hid Hop Hal E) as [Hn' Hll].
    assert (Hs : inv s /\ idinv s) by (eapply reach_ids_inv; [exact I|exact Hid|eapply reachi_step; [constructor|exact Hop|exact Hal|exact E]]).
    destruct Hs as [I' Hid']. assert (He' : lookup_exact s) by exact (exact_of_ids _ (idi_ok _ Hid')).
    unfold update_if_needed in Eu. destruct (st_remake s) eqn:Er.
    + destruct (update_holds s g1 He' Hb Hp) as (g2 & Eu2 & [Hg2 Hf2] & Hb2 & Hp2). rewrite Eu in Eu2. injection Eu2 as <-.
      split; [exact I'|]. split; [exact Hid'|]. split; [lia|]. split; [exact Hb2|]. split; [exact Hp2|]. rewrite Hg2.
      split; [intros k Hk; apply filter_In in Hk as [Hk _]; now apply Hi|]. split.
      * intros k Hk Hlk. apply filter_In. split; [|now apply livesb_spec]. destruct (Hll k Hlk) as [Hlk1|Hge]; [now apply Hl|]. specialize (Hlt0 k Hk). lia.
      * eapply Forall2_weaken; [|exact Hf2]. intros gid lid (l & -> & Hlv) l' Hl'. f_equal. eapply lives_unique; eauto.
    + injection Eu as <-. split; [exact I'|]. split; [exact Hid'|]. split; [lia|]. split; [exact Hb|]. split; [exact Hp|]. split; [exact Hi|]. split.
      * intros k Hk Hlk. destruct (Hll k Hlk) as [Hlk1|Hge]; [now apply Hl|]. specialize (Hlt0 k Hk). lia.
      * assert (Hw : forall gid lid, In gid (g_gids g1) -> right s1 gid lid -> right s gid lid).
        { intros gid lid Hin Hri l Hlv. destruct (Hll gid (ex_intro _ l Hlv)) as [[l1 Hl1]|Hge]; [|specialize (Hlt0 gid (Hi _ Hin)); lia].
          pose proof (step_addr o s1 s I Hid Hop Hal E Er gid l1 Hl1 (ex_intro _ l Hlv)) as Hl2. rewrite (lives_unique s gid l l1 He' Hlv Hl2). now apply Hri. }
        clear - Hr Hw. revert Hw. induction Hr as [|a b l l' Ha _ IH]; intros Hw; constructor; [apply Hw; [now left|exact Ha]|]. apply IH. intros; apply Hw; [now right|assumption].
  - injection Ec' as <- <-. destruct (IH Ec s1 g1 eq_refl) as (I & Hid & Hn & Hb & Hp & Hi & Hl & Hr).
    split; [destruct I; constructor; assumption|]. split; [destruct Hid; constructor; assumption|]. split; [exact Hn|]. split; [exact Hb|]. split; [exact Hp|]. split; [exact Hi|]. split; [exact Hl|exact Hr].
Qed.
