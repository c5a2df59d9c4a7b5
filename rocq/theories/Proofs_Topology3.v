(* Proofs about exchange_particles on one processor: C38. *)
From Coq Require Import String.
From Verif Require Import Lib Model_Geometry Model_Store Model_Buffer Model_Topology Spec_Store Spec_Buffer Spec_Topology
  Proofs_Store1 Proofs_Store2 Proofs_Store3 Proofs_Store4 Proofs_Store5 Proofs_Store6 Proofs_Buffer.
From Coq Require Import Permutation ZifyBool ZifyNat.
Local Open Scope list_scope.

Lemma run_app a : forall b s, run (a ++ b) s = match run a s with Some s1 => run b s1 | None => None end.
Proof. induction a as [|o a IH]; intros b s; cbn [app run]; [reflexivity|]. destruct (step o s); auto. Qed.

Lemma same_layout_refl s : same_layout s s. Proof. repeat split. Qed.
Lemma same_layout_sym s r : same_layout s r -> same_layout r s. Proof. unfold same_layout. intuition. Qed.

Lemma mark_layout id s s' : markForRemoval id s = Some s' -> same_layout s s'.
Proof.
  unfold markForRemoval. destruct (id <? 0)%Z; [discriminate|]. destruct (nth_error (st_mem s) (Z.to_nat id)) as [q|]; [|discriminate].
  destruct ((p_type q <? 0)%Z || (Z.of_nat (st_size s) <=? id)%Z)%bool; [intros E; injection E as <-; repeat split|].
  destruct (write (Z.to_nat id) (set_x (far_x (p_x q)) (set_type (-1) q)) (st_mem s)); [|discriminate]. intros E. injection E as <-. repeat split.
Qed.
Lemma marks_layout ids : forall s s', run (mark_all ids) s = Some s' -> same_layout s s'.
Proof.
  induction ids as [|id ids IH]; intros s s' E; cbn [mark_all map run step] in E; [injection E as <-; apply same_layout_refl|].
  destruct (markForRemoval id s) as [s1|] eqn:E1; [|discriminate]. eapply same_layout_trans; [eapply mark_layout; eauto|]. now apply IH.
Qed.
Lemma removal_layout s s' : doParticleRemoval s = Some s' -> same_layout s s'.
Proof.
  unfold doParticleRemoval. destruct (st_rm s); [intros E; injection E as <-; apply same_layout_refl|].
  destruct (fill_holes _ _ _ _) as [[r [m g]]|]; [|discriminate]. intros E. injection E as <-. repeat split.
Qed.

(* A message that carries the records ps. *)
Definition carries (dw : nat) (m : message) (ps : list part) : Prop :=
  fst m = length ps /\ forall i p, nth_error ps i = Some p -> block dw i (snd m) = enc p.

Lemma block_firstn dw n i (buf : list word) : (i < n)%nat -> block dw i (firstn (n * dw) buf) = block dw i buf.
Proof.
  intros H. unfold block. rewrite skipn_firstn_comm, firstn_firstn. f_equal. nia.
Qed.

Lemma records_forall2_inj s ids ps qs : records s ids ps -> records s ids qs -> ps = qs.
Proof.
  intros H. revert qs. induction H as [|k p ks ps [H1 H2] H IH]; intros qs Hq; inversion Hq as [|? q ? qs' [H3 H4] H5]; subst; [reflexivity|].
  f_equal; [congruence|auto].
Qed.

Lemma existsb_in k (ids : list nat) : existsb (Z.eqb (Z.of_nat k)) (map Z.of_nat ids) = true <-> In k ids.
Proof.
  rewrite existsb_exists. split.
  - intros (z & Hz & Ez). apply in_map_iff in Hz as (m & <- & Hm). apply Z.eqb_eq in Ez. now replace k with m by lia.
  - intros Hk. exists (Z.of_nat k). split; [now apply in_map|apply Z.eqb_refl].
Qed.

(* Sending one list. *)
Lemma send_one_spec ids ps buf s : inv s -> records s ids ps -> Forall (shaped s) ps -> NoDup ids ->
  exists m s', send_particle_data (data_width s) ids buf s = Some (m, s') /\ carries (data_width s) m ps /\
    run (mark_all (map Z.of_nat ids)) s = Some s' /\ inv s' /\ same_layout s s' /\ st_size s' = st_size s /\
    forall k, ~ In k ids -> (k < st_size s)%nat -> nth_error (st_mem s') k = nth_error (st_mem s) k.
Proof.
  intros I Hr Hs Hn. pose proof (Forall2_len _ _ _ Hr) as Hlen.
  assert (Hids : forall id, In id (map Z.of_nat ids) -> (0 <= id < Z.of_nat (st_size s))%Z).
  { clear - Hr. intros id Hin. apply in_map_iff in Hin as (k & <- & Hin).
    induction Hr as [|k' p ks qs [H1 H2] H IH]; [destruct Hin|]. destruct Hin as [<-|Hin]; [lia|auto]. }
  destruct (marks_spec (map Z.of_nat ids) s I Hids) as (s1 & Er & I1 & S1 & M1).
  assert (Hoth : forall k, ~ In k ids -> (k < st_size s)%nat -> nth_error (st_mem s1) k = nth_error (st_mem s) k).
  { intros k Hk Hlt. rewrite M1 by exact Hlt. destruct (existsb (Z.eqb (Z.of_nat k)) (map Z.of_nat ids)) eqn:E; [apply existsb_in in E; tauto|].
    destruct (nth_error (st_mem s) k); [|reflexivity]. cbn. now rewrite andb_false_r. }
  unfold send_particle_data. destruct (Nat.ltb_spec 0 (length ids)) as [H0|H0].
  - destruct (pack_loop_spec (data_width s) ids ps 0 true (enlarge (length ids * data_width s) buf) s eq_refl I Hr Hs (fun _ => Hn))
      as (buf' & s' & E & L & B & _ & R). { cbn [Nat.add]. apply enlarge_len. }
    unfold pack_buffer. rewrite E. rewrite R in Er. injection Er as <-.
    eexists _, s'. split; [reflexivity|]. split.
    { split; [cbn; lia|]. intros i p Hp. cbn [snd]. rewrite block_firstn by (assert (i < length ps)%nat by (apply nth_error_Some; congruence); lia).
      now apply B. }
    split; [exact R|]. split; [exact I1|]. split; [eapply marks_layout; eauto|]. auto.
  - destruct ids as [|id ids]; [|cbn in H0; lia]. inversion Hr; subst. cbn in Er. injection Er as <-.
    eexists _, s. split; [reflexivity|]. split; [split; [reflexivity|intros [|i] p Hp; discriminate]|]. split; [reflexivity|].
    split; [exact I|]. split; [apply same_layout_refl|]. auto.
Qed.

Lemma NoDup_app_inv {A} (a b : list A) : NoDup (a ++ b) -> NoDup a /\ NoDup b /\ forall x, In x a -> ~ In x b.
Proof.
  induction a as [|y a IH]; intros H; cbn in *; [repeat split; auto; constructor|]. inversion H; subst. destruct (IH H3) as (A1 & A2 & A3).
  split; [constructor; auto; intros Hin; apply H2; apply in_or_app; now left|]. split; [exact A2|].
  intros x [<-|Hx] Hb; [apply H2; apply in_or_app; now right|]. now apply (A3 x Hx).
Qed.

Lemma send_all_spec dw bufs : forall lists pss i s, dw = data_width s -> inv s -> Forall2 (records s) lists pss ->
  Forall (Forall (shaped s)) pss -> NoDup (concat lists) ->
  exists ms s', send_all dw lists bufs i s = Some (ms, s') /\ Forall2 (carries dw) ms pss /\
    run (mark_all (map Z.of_nat (concat lists))) s = Some s' /\ inv s' /\ same_layout s s' /\ st_size s' = st_size s.
Proof.
  induction lists as [|ids lists IH]; intros pss i s -> I Hr Hs Hn; cbn [send_all concat].
  - inversion Hr; subst. exists [], s. split; [reflexivity|]. split; [constructor|]. split; [reflexivity|]. split; [exact I|].
    split; [apply same_layout_refl|reflexivity].
  - inversion Hr as [|? ps ? pss' Hr1 Hr2]; subst. inversion Hs as [|? ? Hs1 Hs2]; subst. cbn [concat] in Hn.
    apply NoDup_app_inv in Hn as (N1 & N2 & N3).
    destruct (send_one_spec ids ps (bufs i) s I Hr1 Hs1 N1) as (m & s1 & E1 & C1 & R1 & I1 & L1 & Z1 & O1). rewrite E1.
    destruct (IH pss' (S i) s1 (width_layout s s1 L1) I1) as (ms & s2 & E2 & C2 & R2 & I2 & L2 & Z2); auto.
    + clear - Hr2 O1 N3 Z1. induction Hr2 as [|l q ls qs Hq H IHf]; constructor.
      * assert (Hl : forall k, In k l -> ~ In k ids). { intros k Hk Hin. apply (N3 k Hin). cbn. apply in_or_app. now left. }
        clear - Hq O1 Hl Z1. induction Hq as [|k p ks ps [H1 H2] H IH]; constructor.
        -- split; [lia|]. rewrite O1; auto. apply Hl. now left.
        -- apply IH. intros j Hj. apply Hl. now right.
      * apply IHf. intros x Hx Hin. apply (N3 x Hx). cbn. apply in_or_app. now right.
    + eapply Forall_impl; [|exact Hs2]. intros l Hl. eapply Forall_impl; [|exact Hl]. intros q. now apply shaped_layout.
    + rewrite E2. exists (m :: ms), s2. split; [reflexivity|]. split; [constructor; auto|]. split.
      { rewrite map_app. unfold mark_all. rewrite map_app. rewrite run_app. fold (mark_all (map Z.of_nat ids)). rewrite R1. exact R2. }
      split; [exact I2|]. split; [eapply same_layout_trans; eauto|congruence].
Qed.

(* Receiving. *)
Lemma recv_all_spec dw : forall ms pss s, dw = data_width s -> inv s -> Forall2 (carries dw) ms pss ->
  Forall (Forall (shaped s)) pss -> Forall (Forall alive) pss ->
  exists s', recv_all dw ms s = Some s' /\ inv s' /\ same_layout s s' /\ particles s' = particles s ++ concat pss /\
    st_size s' = (st_size s + length (concat pss))%nat.
Proof.
  induction ms as [|m ms IH]; intros pss s -> I C Hs Ha; inversion C as [|? ps ? pss' C1 C2]; subst; cbn [recv_all concat].
  - exists s. rewrite app_nil_r, Nat.add_0_r. repeat split; auto; apply I.
  - inversion Hs as [|? ? Hs1 Hs2]; inversion Ha as [|? ? Ha1 Ha2]; subst. destruct C1 as [Cn Cb].
    assert (H1 : exists s1, recv_new_particle_data (data_width s) m s = Some s1 /\ inv s1 /\ same_layout s s1 /\
      particles s1 = particles s ++ ps /\ st_size s1 = (st_size s + length ps)%nat).
    { unfold recv_new_particle_data. destruct (Nat.ltb_spec 0 (fst m)) as [H0|H0].
      - destruct (unpack_loop_spec ps 0 (snd m) s (inv_size _ I) Hs1) as (s1 & E & F & Z & N & M & R & X & D & L & P & K).
        { intros i p Hp. now apply Cb. }
        exists s1. unfold unpack_buffer. rewrite Cn. split; [exact E|].
        destruct (unpack_inv ps s s1 I Ha1 Z F N R P K) as [J1 J2]. auto.
      - destruct ps as [|p ps]; [|cbn in Cn; lia]. exists s. rewrite app_nil_r. cbn [length]. rewrite Nat.add_0_r.
        split; [reflexivity|]. split; [exact I|]. split; [apply same_layout_refl|]. auto. }
    destruct H1 as (s1 & E1 & I1 & L1 & P1 & Z1). rewrite E1. rewrite (width_layout s s1 L1) in *.
    destruct (IH pss' s1 eq_refl I1 C2) as (s2 & E2 & I2 & L2 & P2 & Z2); auto.
    { eapply Forall_impl; [|exact Hs2]. intros l Hl. eapply Forall_impl; [|exact Hl]. intros q. now apply shaped_layout. }
    exists s2. split; [exact E2|]. split; [exact I2|]. split; [eapply same_layout_trans; eauto|].
    split; [rewrite P2, P1, <- app_assoc; reflexivity|]. rewrite Z2, Z1, app_length. lia.
Qed.

(* ---- which particles go where *)
Definition goes (rank : nat) (pb : bounds) (t : kdtree) (nbs : list (nat * bounds)) (i : nat) (p : part) : bool :=
  match destination rank pb t nbs p with Some j => (i =? j)%nat | None => false end.
Definition stays (rank : nat) (pb : bounds) (t : kdtree) (nbs : list (nat * bounds)) (p : part) : bool :=
  match destination rank pb t nbs p with Some j => false | None => true end.

Lemma records_filter (f : part -> bool) s : (st_size s <= st_cap s)%nat ->
  records s (filter (fun id => match nth_error (st_mem s) id with Some p => f p | None => false end) (seq 0 (st_size s)))
    (filter f (firstn (st_size s) (st_mem s))).
Proof.
  intros Hc. unfold st_cap in Hc.
  assert (G : forall l off, (forall k, (k < length l)%nat -> nth_error (st_mem s) (off + k) = nth_error l k) -> (off + length l <= st_size s)%nat ->
    records s (filter (fun id => match nth_error (st_mem s) id with Some p => f p | None => false end) (seq off (length l))) (filter f l)).
  { induction l as [|p l IH]; intros off H Hl; cbn [length seq filter]; [constructor|]. cbn [length] in *.
    pose proof (H O ltac:(lia)) as H0. rewrite Nat.add_0_r in H0. cbn in H0. rewrite H0.
    assert (IHl : records s (filter (fun id => match nth_error (st_mem s) id with Some p => f p | None => false end) (seq (S off) (length l))) (filter f l)).
    { apply IH; [|lia]. intros k Hk. replace (S off + k)%nat with (off + S k)%nat by lia. apply (H (S k)). lia. }
    destruct (f p); [|exact IHl]. constructor; [split; [lia|exact H0]|exact IHl]. }
  specialize (G (firstn (st_size s) (st_mem s)) 0%nat). rewrite firstn_length, Nat.min_l in G by lia. apply G; [|lia].
  intros k Hk. cbn. symmetry. now apply nth_error_firstn_lt.
Qed.

Lemma filter_filter_imp {A} (f g : A -> bool) l : (forall a, f a = true -> g a = true) -> filter f (filter g l) = filter f l.
Proof.
  intros H. induction l as [|a l IH]; [reflexivity|]. cbn. destruct (g a) eqn:Eg; cbn; [now rewrite IH|].
  destruct (f a) eqn:Ef; [apply H in Ef; congruence|exact IH].
Qed.

Lemma goes_alive rank pb t nbs i p : goes rank pb t nbs i p = true -> aliveb p = true.
Proof.
  unfold goes, destination, aliveb. destruct (Z.ltb_spec (-1) (p_type p)); cbn [andb]; [|discriminate]. intros _. destruct (Z.ltb_spec (p_type p) 0); [lia|reflexivity].
Qed.

Lemma index_of_lt r nbs : forall i, index_of r nbs = Some i -> (i < length nbs)%nat.
Proof.
  induction nbs as [|[r' b] nbs IH]; intros i H; cbn in H; [discriminate|]. destruct (r' =? r)%nat; [injection H as <-; cbn; lia|].
  destruct (index_of r nbs) as [j|]; [|discriminate]. cbn in H. injection H as <-. specialize (IH j eq_refl). cbn. lia.
Qed.

Lemma in_send_ids rank pb t nbs i s id : In id (send_ids rank pb t nbs i s) <->
  (id < st_size s)%nat /\ exists p, nth_error (st_mem s) id = Some p /\ goes rank pb t nbs i p = true.
Proof.
  unfold send_ids. rewrite filter_In, in_seq. unfold goes. split.
  - intros [H1 H2]. split; [lia|]. destruct (nth_error (st_mem s) id) as [p|]; [|discriminate]. eauto.
  - intros [H1 (p & E & H2)]. split; [lia|]. now rewrite E.
Qed.

Lemma send_ids_NoDup rank pb t nbs s n : forall a, NoDup (concat (map (fun i => send_ids rank pb t nbs i s) (seq a n))).
Proof.
  induction n as [|n IH]; intros a; cbn [seq map concat]; [constructor|].
  assert (H1 : NoDup (send_ids rank pb t nbs a s)) by (apply NoDup_filter; apply seq_NoDup).
  assert (H2 : forall x, In x (send_ids rank pb t nbs a s) -> ~ In x (concat (map (fun i => send_ids rank pb t nbs i s) (seq (S a) n)))).
  { intros x Hx Hin. apply in_concat in Hin as (l & Hl & Hxl). apply in_map_iff in Hl as (j & <- & Hj). apply in_seq in Hj.
    apply in_send_ids in Hx as (_ & p & Ep & Hp). apply in_send_ids in Hxl as (_ & q & Eq & Hq). rewrite Ep in Eq. injection Eq as <-.
    unfold goes in *. destruct (destination rank pb t nbs p); [|discriminate]. lia. }
  specialize (IH (S a)). clear - H1 H2 IH. induction (send_ids rank pb t nbs a s) as [|y l IHl]; [exact IH|]. inversion H1; subst. cbn. constructor.
  - intros Hin. apply in_app_or in Hin as [Hin|Hin]; [tauto|]. apply (H2 y); [now left|exact Hin].
  - apply IHl; auto. intros x Hx. apply H2. now right.
Qed.

Lemma others_filter (ids : list nat) (f : part -> bool) s : (st_size s <= st_cap s)%nat ->
  (forall k p, (k < st_size s)%nat -> nth_error (st_mem s) k = Some p -> aliveb p = true -> (In k ids <-> f p = false)) ->
  others (map Z.of_nat ids) s = filter f (particles s).
Proof.
  intros Hc Hf. unfold others, particles, st_cap in *.
  assert (G : forall l off, (forall k, (k < length l)%nat -> nth_error (st_mem s) (off + k) = nth_error l k) -> (off + length l <= st_size s)%nat ->
    map snd (filter (fun kp => aliveb (snd kp) && negb (existsb (Z.eqb (Z.of_nat (fst kp))) (map Z.of_nat ids))) (combine (seq off (length l)) l)) =
    filter f (filter aliveb l)).
  { induction l as [|p l IH]; intros off H Hl; cbn [length seq combine filter fst snd map]; [reflexivity|]. cbn [length] in *.
    pose proof (H O ltac:(lia)) as H0. rewrite Nat.add_0_r in H0. cbn in H0.
    assert (IHl : map snd (filter (fun kp => aliveb (snd kp) && negb (existsb (Z.eqb (Z.of_nat (fst kp))) (map Z.of_nat ids))) (combine (seq (S off) (length l)) l)) =
      filter f (filter aliveb l)).
    { apply IH; [|lia]. intros k Hk. replace (S off + k)%nat with (off + S k)%nat by lia. apply (H (S k)). lia. }
    destruct (aliveb p) eqn:Ea; cbn [andb]; [|exact IHl]. cbn [filter].
    destruct (Hf off p ltac:(lia) H0 Ea) as [F1 F2].
    destruct (existsb (Z.eqb (Z.of_nat off)) (map Z.of_nat ids)) eqn:Ee.
    - apply existsb_in in Ee. rewrite (F1 Ee). cbn. exact IHl.
    - destruct (f p) eqn:Ef; [cbn; f_equal; exact IHl|]. exfalso. specialize (F2 eq_refl). apply existsb_in in F2. congruence. }
  specialize (G (firstn (st_size s) (st_mem s)) 0%nat). rewrite firstn_length, Nat.min_l in G by lia. apply G; [|lia].
  intros k Hk. cbn. symmetry. now apply nth_error_firstn_lt.
Qed.

(* The sending half on one processor. *)
Lemma exchange_send_spec box t rank bufs s pb : process_bounds rank t = Some pb -> inv s ->
  Forall (shaped s) (particles s) ->
  let nbs := neighbors box rank t in
  (filter (stays rank pb t nbs) (particles s) <> [] \/
   (st_rm s = [] /\ forall p, In p (particles s) -> stays rank pb t nbs p = true)) ->
  exists ms s', exchange_send box t rank (data_width s) bufs s = Some (combine (map fst nbs) ms, s') /\
    Forall2 (carries (data_width s)) ms (map (fun i => filter (goes rank pb t nbs i) (particles s)) (seq 0 (length nbs))) /\
    inv s' /\ same_layout s s' /\ Permutation (particles s') (filter (stays rank pb t nbs) (particles s)).
Proof.
  intros Hpb I Hsh nbs Hst. unfold exchange_send. rewrite Hpb. fold nbs.
  assert (Hnone : nbs = [] -> filter (stays rank pb t nbs) (particles s) = particles s).
  { intros En. apply filter_all. intros p _. unfold stays, destination. rewrite En. destruct (_ && _); reflexivity. }
  destruct nbs as [|nb0 nbs0] eqn:En.
  { exists [], s. split; [reflexivity|]. split; [constructor|]. split; [exact I|]. split; [apply same_layout_refl|]. rewrite Hnone by reflexivity. apply Permutation_refl. }
  rewrite <- En in *. clear Hnone.
  set (lists := map (fun i => send_ids rank pb t nbs i s) (seq 0 (length nbs))).
  set (pss := map (fun i => filter (goes rank pb t nbs i) (particles s)) (seq 0 (length nbs))).
  pose proof (inv_size _ I) as Hc.
  assert (Hrec : Forall2 (records s) lists pss).
  { unfold lists, pss. induction (seq 0 (length nbs)) as [|i l IH]; cbn [map]; constructor; auto.
    unfold particles. rewrite filter_filter_imp by (intros a; apply goes_alive). unfold send_ids. apply (records_filter (goes rank pb t nbs i) s Hc). }
  destruct (send_all_spec (data_width s) bufs lists pss 0 s eq_refl I Hrec) as (ms & s1 & E1 & C1 & R1 & I1 & L1 & Z1).
  { apply Forall_forall. intros l Hl. apply in_map_iff in Hl as (i & <- & _). apply Forall_forall. intros p Hp. apply filter_In in Hp as [Hp _].
    rewrite Forall_forall in Hsh. auto. }
  { apply send_ids_NoDup. }
  rewrite E1.
  assert (Hids : forall id, In id (map Z.of_nat (concat lists)) -> (0 <= id < Z.of_nat (st_size s))%Z).
  { intros id Hin. apply in_map_iff in Hin as (k & <- & Hin). apply in_concat in Hin as (l & Hl & Hk). apply in_map_iff in Hl as (i & <- & _).
    apply in_send_ids in Hk as [Hk _]. lia. }
  destruct (marks_spec (map Z.of_nat (concat lists)) s I Hids) as (s1' & Er & _ & _ & M1). rewrite R1 in Er. injection Er as <-.
  pose proof (others_marked _ s s1 I Z1 M1) as P1.
  assert (P2 : particles s1 = filter (stays rank pb t nbs) (particles s)).
  { rewrite P1. apply others_filter; [exact Hc|]. intros k p Hk Ek Ea. split.
    - intros Hin. apply in_concat in Hin as (l & Hl & Hkl). apply in_map_iff in Hl as (i & <- & _). apply in_send_ids in Hkl as (_ & q & Eq & Hg).
      rewrite Ek in Eq. injection Eq as <-. unfold goes, stays in *. destruct (destination rank pb t nbs p); [reflexivity|discriminate].
    - intros Hs. unfold stays in Hs. destruct (destination rank pb t nbs p) as [j|] eqn:Ed; [|discriminate].
      apply in_concat. exists (send_ids rank pb t nbs j s). split.
      + unfold lists. apply in_map_iff. exists j. split; [reflexivity|]. apply in_seq. unfold destination in Ed. destruct (_ && _); [|discriminate].
        apply index_of_lt in Ed. lia.
      + apply in_send_ids. split; [exact Hk|]. exists p. split; [exact Ek|]. unfold goes. rewrite Ed. apply Nat.eqb_refl. }
  assert (Hcan : can_remove s1).
  { destruct Hst as [Hst|[Hrm Hst]].
    - right. rewrite (inv_number _ I1). unfold count. fold (particles s1). rewrite P2. destruct (filter (stays rank pb t nbs) (particles s)); [congruence|cbn; lia].
    - left. assert (Hnil : concat lists = []).
      { destruct (concat lists) as [|k l] eqn:El; [reflexivity|]. exfalso. assert (Hin : In k (concat lists)) by (rewrite El; now left).
        apply in_concat in Hin as (l' & Hl & Hk). apply in_map_iff in Hl as (i & <- & _). apply in_send_ids in Hk as (Hk & p & Ep & Hg).
        pose proof (goes_alive _ _ _ _ _ _ Hg) as Ha. specialize (Hst p). unfold stays in Hst. unfold goes in Hg.
        destruct (destination rank pb t nbs p); [|discriminate]. apply diff_false_true. apply Hst.
        unfold particles. apply filter_In. split; [|exact Ha]. apply (nth_error_In _ k). rewrite nth_error_firstn_lt by lia. exact Ep. }
      rewrite Hnil in R1. cbn in R1. injection R1 as <-. exact Hrm. }
  destruct (removal_spec s1 I1 Hcan) as (s2 & E2 & I2 & _ & _ & _ & _ & F2 & Pm & _).
  rewrite E2. exists ms, s2. split; [reflexivity|]. split; [exact C1|]. split; [exact I2|].
  split; [eapply same_layout_trans; [exact L1|now apply removal_layout]|]. rewrite <- P2. apply Permutation_sym. exact Pm.
Qed.
