(* Creating ghosts, moving particles and updating the ghosts: C37, C39. *)
From Coq Require Import String.
From Verif Require Import Lib Model_Geometry Model_Store Model_Buffer Model_Topology Model_Messages Model_Ghosts Spec_Geometry Spec_Store
  Spec_Buffer Spec_Topology Proofs_Store1 Proofs_Store2 Proofs_Store3 Proofs_Store4 Proofs_Store5 Proofs_Store6 Proofs_Buffer Proofs_Ghost
  Proofs_Topology1 Proofs_Topology2 Proofs_Topology3 Proofs_Topology4 Proofs_Messages1 Proofs_Messages2 Proofs_Messages3 Proofs_Messages4.
From Coq Require Import Permutation ZifyBool ZifyNat.
Local Open Scope list_scope.

Lemma local_all {T} (f : nat -> T -> option T) ss : (forall k s, nth_error ss k = Some s -> exists s', f k s = Some s') ->
  exists ss', round_all (local_round f) ss = Some ss' /\ length ss' = length ss /\ forall k s, nth_error ss k = Some s -> exists s', f k s = Some s' /\ nth_error ss' k = Some s'.
Proof.
  intros H. unfold round_all. cbn [r_local local_round].
  destruct (sequence_map (fun ks => option_map (pair (@nil (nat * message))) (f (fst ks) (snd ks))) (fun ks o => exists s', f (fst ks) (snd ks) = Some s' /\ o = ([], s'))
    (combine (seq 0 (length ss)) ss)) as (outs & E & F).
  { intros [k s] Hin. apply in_combine_seq in Hin as [_ Hk]. rewrite Nat.sub_0_r in Hk. destruct (H k s Hk) as (s' & E). exists ([], s'). cbn [fst snd]. rewrite E. cbn. eauto. }
  rewrite E. pose proof (Forall2_len _ _ _ F) as Lo. rewrite combine_length, seq_length, Nat.min_id in Lo.
  destruct (sequence_map (fun ko => match delivered (local_round f) (fst ko) outs with
      | Some ms => accept_all (local_round f) (fst ko) ms (snd (snd ko)) | None => None end) (fun ko s' => s' = snd (snd ko))
    (combine (seq 0 (length outs)) outs)) as (ss' & E' & F').
  { intros [k o] _. exists (snd o). split; reflexivity. }
  exists ss'. split; [exact E'|]. pose proof (Forall2_len _ _ _ F') as L'. rewrite combine_length, seq_length, Nat.min_id in L'. split; [lia|].
  intros k s Hk. destruct (Forall2_nth _ _ _ F k (k, s)) as (o & Eo & s' & Es & ->). { rewrite combine_seq_nth, Hk. reflexivity. }
  destruct (Forall2_nth _ _ _ F' k (k, ([], s'))) as (s2 & E2 & ->). { rewrite combine_seq_nth, Eo. reflexivity. }
  exists s'. auto.
Qed.

Section PERIOD.
Variables (box : box) (P : nat) (t : kdtree) (l : ghost_layout).
Hypothesis HP : (2 <= P)%nat.
Hypothesis HB : nonempty (bounds_of box).
Hypothesis Ht : t = topology_tree P (bounds_of box).
Hypothesis Hdim : (length box <= 4)%nat.
Local Notation nbr k := (map fst (neighbors box k t)).
Local Notation idsf := (ids_for box t).
Local Notation us := (usent box t).

Definition ready (gs : list gproc) : Prop :=
  length gs = P /\
  (forall k g, nth_error gs k = Some g -> st_dims (g_own g) = length box /\ st_dims (g_gho g) = length box /\
    (st_size (g_own g) <= length (st_mem (g_own g)))%nat /\ (forall p, In p (stored (g_own g)) -> gok (g_own g) l p) /\
    fits (g_gho g) /\ (forall p, In p (stored (g_gho g)) -> om_ok l p)) /\
  (forall k g n, nth_error gs k = Some g -> forall id, In id (idsf gs k n) -> (id < st_size (g_own g))%nat) /\
  (forall k g, nth_error gs k = Some g ->
    g_sizes g = map (fun n => length (idsf gs n k)) (nbr k) /\
    st_size (g_gho g) = length (flat_map (fun n => idsf gs n k) (nbr k))).
Definition images (gs : list gproc) : Prop := forall k g kb, nth_error gs k = Some g -> process_bounds k t = Some kb ->
  Forall2 (is_image box l (center kb)) (flat_map (fun n => us gs n k) (nbr k)) (stored (g_gho g)).

Lemma Forall2_nth_intro {A B} (R : A -> B -> Prop) : forall la lb, length la = length lb ->
  (forall i a b, nth_error la i = Some a -> nth_error lb i = Some b -> R a b) -> Forall2 R la lb.
Proof.
  induction la as [|a la IH]; intros [|b lb] HL H; try discriminate; constructor; [apply (H 0%nat); reflexivity|].
  apply IH; [cbn in HL; lia|]. intros i. apply (H (S i)).
Qed.

(* -- updating *)
Lemma refreshed_image c p g g1 : om_ok l p -> om_ok l g -> refreshed box l c p g g1 -> is_image box l c p g1.
Proof.
  intros Hp Hg (H1 & H2 & H3 & _). split; [exact H1|]. split; [intros E; now rewrite H2, E|]. intros E. unfold get_om in *. rewrite E in H3.
  unfold om_ok, get_om in Hp, Hg. specialize (Hp E). specialize (Hg E). destruct (om_entry l) as [e|] eqn:Ee; [|congruence]. rewrite H3, set_nth_nth.
  - rewrite Nat.eqb_refl. unfold om_of, get_om. rewrite Ee. destruct (nth_error (scals p) e); [reflexivity|congruence].
  - apply nth_error_Some. exact Hg.
Qed.

Lemma same_ids gs gs' : length gs' = length gs -> (forall k g, nth_error gs k = Some g -> exists g', nth_error gs' k = Some g' /\ g_send g' = g_send g) ->
  forall n k, idsf gs' n k = idsf gs n k.
Proof.
  intros HL H n k. unfold ids_for. destruct (nth_error gs n) as [g|] eqn:E.
  - destruct (H n g E) as (g' & -> & ->). reflexivity.
  - apply nth_error_None in E. rewrite (proj2 (nth_error_None gs' n)) by lia. reflexivity.
Qed.

Lemma update_ready bufs gs : ready gs -> round_ok (update_round box t l bufs) gs /\
  exists gs', round_all (update_round box t l bufs) gs = Some gs' /\ ready gs' /\ images gs' /\
    (forall k g, nth_error gs k = Some g -> exists g', nth_error gs' k = Some g' /\ g_own g' = g_own g /\ st_number (g_gho g') = st_number (g_gho g)) /\
    (forall n k, us gs' n k = us gs n k).
Proof.
  intros (HL & HI & HS & HZ). split; [now apply (update_round_ok box P)|].
  destruct (update_all_spec box P t l bufs gs HP HB Ht HL Hdim HI HS HZ) as (gs' & E & L' & S).
  exists gs'. split; [exact E|].
  assert (K : forall k g, nth_error gs k = Some g -> exists g' kb, nth_error gs' k = Some g' /\ process_bounds k t = Some kb /\ g_own g' = g_own g /\ g_send g' = g_send g /\
    g_sizes g' = g_sizes g /\ fits (g_gho g') /\ st_size (g_gho g') = st_size (g_gho g) /\ st_number (g_gho g') = st_number (g_gho g) /\
    same_layout (g_gho g) (g_gho g') /\ Forall2 (is_image box l (center kb)) (flat_map (fun n => us gs n k) (nbr k)) (stored (g_gho g')) /\
    (forall p, In p (stored (g_gho g')) -> om_ok l p)).
  { intros k g Hk. assert (Hlt : (k < P)%nat) by (rewrite <- HL; apply nth_error_Some; congruence).
    destruct (leaf_exists t P k (ranks_seq box P t HP HB Ht) Hlt) as (kb & _ & Hkb).
    destruct (S k g kb Hk Hkb) as (g' & S1 & S2 & S3 & S4 & S5 & S6 & S7 & S8 & S9 & S10).
    exists g', kb. split; [exact S1|]. split; [exact Hkb|]. split; [exact S2|]. split; [exact S3|]. split; [exact S4|]. split; [exact S5|].
    split; [exact S6|]. split; [exact S7|]. split; [exact S8|].
    destruct (HI k g Hk) as (_ & _ & _ & _ & Hf & Hom). unfold fits, st_cap in Hf, S5.
    assert (Lg : length (stored (g_gho g)) = st_size (g_gho g)) by (unfold stored; rewrite firstn_length; lia).
    assert (Lg' : length (stored (g_gho g')) = st_size (g_gho g)) by (unfold stored; rewrite firstn_length; lia).
    assert (Q : forall i p g2, nth_error (flat_map (fun n => us gs n k) (nbr k)) i = Some p -> nth_error (stored (g_gho g')) i = Some g2 ->
       exists g0, nth_error (stored (g_gho g)) i = Some g0 /\ om_ok l g0 /\ om_ok l p /\ refreshed box l (center kb) p g0 g2).
    { intros i p g2 Hp Hg2. destruct (nth_error (stored (g_gho g)) i) as [g0|] eqn:E0.
      2:{ apply nth_error_None in E0. assert (i < length (stored (g_gho g')))%nat by (apply nth_error_Some; congruence). lia. }
      destruct (S10 i p g0 Hp E0) as (g1 & X1 & X2). assert (g1 = g2) by congruence. subst g1. exists g0. split; [reflexivity|].
      split; [apply Hom; eapply nth_error_In; eauto|]. split; [|exact X2].
      apply nth_error_In in Hp. apply in_flat_map in Hp as (n & _ & Hp). destruct (nth_error gs n) as [gn|] eqn:En.
      2:{ unfold usent in Hp. rewrite En in Hp. destruct Hp. }
      destruct (usent_records box P t l bufs gs HP HL Hdim HI HS HZ n k gn En) as (_ & _ & R3). rewrite Forall_forall in R3. apply R3 in Hp. apply Hp. }
    split.
    - apply Forall2_nth_intro; [lia|]. intros i p g2 Hp Hg2. destruct (Q i p g2 Hp Hg2) as (g0 & _ & Q2 & Q3 & Q4). now apply (refreshed_image _ _ g0).
    - intros g2 Hg2. apply In_nth_error in Hg2 as [i Hi]. destruct (nth_error (flat_map (fun n => us gs n k) (nbr k)) i) as [p|] eqn:Ep.
      2:{ apply nth_error_None in Ep. assert (i < length (stored (g_gho g')))%nat by (apply nth_error_Some; congruence). lia. }
      destruct (Q i p g2 Ep Hi) as (g0 & _ & Q2 & Q3 & Q4). intros Hsend. destruct (refreshed_image _ _ _ _ Q3 Q2 Q4) as (_ & _ & X). rewrite (X Hsend). now apply Q3. }
  assert (Eids : forall n k, idsf gs' n k = idsf gs n k).
  { apply same_ids; [lia|]. intros k g Hk. destruct (K k g Hk) as (g' & kb & K1 & _ & _ & K4 & _). eauto. }
  assert (Eus : forall n k, us gs' n k = us gs n k).
  { intros n k. unfold usent. rewrite Eids. destruct (nth_error gs n) as [g|] eqn:En.
    - destruct (K n g En) as (g' & kb & -> & _ & -> & _). reflexivity.
    - apply nth_error_None in En. rewrite (proj2 (nth_error_None gs' n)) by lia. reflexivity. }
  assert (Back : forall k g', nth_error gs' k = Some g' -> exists g, nth_error gs k = Some g).
  { intros k g' Hk. destruct (nth_error gs k) as [g|] eqn:Eg; [eauto|]. apply nth_error_None in Eg. assert (k < length gs')%nat by (apply nth_error_Some; congruence). lia. }
  split; [|split; [|split; [|exact Eus]]].
  - split; [lia|]. split; [|split].
    + intros k g' Hk. destruct (Back k g' Hk) as [g Hg]. destruct (K k g Hg) as (g2 & kb & K1 & K2 & K3 & K4 & K5 & K6 & K7 & K8 & K9 & K10 & K11).
      assert (g2 = g') by congruence. subst g2. destruct (HI k g Hg) as (A1 & A2 & A3 & A4 & A5 & A6). rewrite K3. repeat split; auto; try apply A4; auto.
      destruct K9 as [K9 _]. congruence.
    + intros k g' n Hk id Hid. destruct (Back k g' Hk) as [g Hg]. destruct (K k g Hg) as (g2 & kb & K1 & K2 & K3 & _). assert (g2 = g') by congruence. subst g2.
      rewrite Eids in Hid. rewrite K3. eapply HS; eauto.
    + intros k g' Hk. destruct (Back k g' Hk) as [g Hg]. destruct (K k g Hg) as (g2 & kb & K1 & K2 & K3 & K4 & K5 & K6 & K7 & _).
      assert (g2 = g') by congruence. subst g2. destruct (HZ k g Hg) as [Z1 Z2]. rewrite K5, K7, Z1, Z2. split.
      * apply map_ext. intros n. now rewrite Eids.
      * f_equal. apply flat_map_ext_in. intros n _. now rewrite Eids.
  - intros k g' kb Hk Hkb. destruct (Back k g' Hk) as [g Hg]. destruct (K k g Hg) as (g2 & kb2 & K1 & K2 & K3 & K4 & K5 & K6 & K7 & K8 & K9 & K10 & K11).
    assert (g2 = g') by congruence. subst g2. assert (kb2 = kb) by congruence. subst kb2.
    rewrite (flat_map_ext_in _ (fun n => us gs n k)) by (intros; apply Eus). exact K10.
  - intros k g Hk. destruct (K k g Hk) as (g' & kb & K1 & K2 & K3 & K4 & K5 & K6 & K7 & K8 & _). eauto.
Qed.

(* -- moving *)

Lemma map_firstn {A B} (f : A -> B) n : forall la, firstn n (map f la) = map f (firstn n la).
Proof. induction n as [|n IH]; intros [|a la]; cbn; auto. now rewrite IH. Qed.

Lemma keeps_om f p : keeps_shape f -> om_ok l p -> om_ok l (f p).
Proof.
  intros Hf Hp Hs. specialize (Hp Hs). unfold get_om in *. destruct (om_entry l) as [e|]; [|congruence].
  intros Hn. apply nth_error_None in Hn. apply Hp. apply nth_error_None. destruct (Hf p) as (_ & _ & E). unfold scals in *. cbn [length] in *. lia.
Qed.

Lemma move_ready f gs : ready gs -> (forall k, keeps_shape (f k)) -> round_ok (move_round f) gs /\
  exists gs', round_all (move_round f) gs = Some gs' /\ ready gs' /\
    (forall k g, nth_error gs k = Some g -> nth_error gs' k = Some (mkG (moved (f k) (g_own g)) (g_gho g) (g_send g) (g_sizes g) (g_at g))) /\
    (forall n k, us gs' n k = map (f n) (us gs n k)).
Proof.
  intros (HL & HI & HS & HZ) Hf. split; [apply local_round_ok|].
  destruct (local_all (fun k g => Some (mkG (moved (f k) (g_own g)) (g_gho g) (g_send g) (g_sizes g) (g_at g))) gs) as (gs' & E & L' & S); [eauto|].
  exists gs'. split; [exact E|].
  assert (K : forall k g, nth_error gs k = Some g -> nth_error gs' k = Some (mkG (moved (f k) (g_own g)) (g_gho g) (g_send g) (g_sizes g) (g_at g))).
  { intros k g Hk. destruct (S k g Hk) as (s' & E1 & E2). congruence. }
  assert (Eids : forall n k, idsf gs' n k = idsf gs n k).
  { apply same_ids; [lia|]. intros k g Hk. rewrite (K k g Hk). eexists. split; [reflexivity|reflexivity]. }
  assert (Back : forall k g', nth_error gs' k = Some g' -> exists g, nth_error gs k = Some g /\ g' = mkG (moved (f k) (g_own g)) (g_gho g) (g_send g) (g_sizes g) (g_at g)).
  { intros k g' Hk. destruct (nth_error gs k) as [g|] eqn:Eg. { rewrite (K k g Eg) in Hk. injection Hk as <-. eauto. }
    apply nth_error_None in Eg. assert (k < length gs')%nat by (apply nth_error_Some; congruence). lia. }
  split; [|split; [exact K|]].
  - split; [lia|]. split; [|split].
    + intros k g' Hk. destruct (Back k g' Hk) as (g & Hg & ->). destruct (HI k g Hg) as (A1 & A2 & A3 & A4 & A5 & A6). cbn [g_own g_gho moved st_dims st_size st_mem].
      split; [exact A1|]. split; [exact A2|]. split; [now rewrite map_length|]. split; [|split; [exact A5|exact A6]].
      intros p Hp. unfold stored in Hp. cbn [moved st_size st_mem] in Hp. rewrite map_firstn in Hp. apply in_map_iff in Hp as (q & <- & Hq).
      destruct (A4 q Hq) as (G1 & G2 & G3). destruct (Hf k q) as (F1 & F2 & F3). unfold gok. cbn [moved st_dims]. repeat split; try congruence. now apply keeps_om.
    + intros k g' n Hk id Hid. destruct (Back k g' Hk) as (g & Hg & ->). rewrite Eids in Hid. cbn [g_own moved st_size]. eapply HS; eauto.
    + intros k g' Hk. destruct (Back k g' Hk) as (g & Hg & ->). destruct (HZ k g Hg) as [Z1 Z2]. cbn [g_sizes g_gho]. rewrite Z1, Z2. split.
      * apply map_ext. intros n. now rewrite Eids.
      * f_equal. apply flat_map_ext_in. intros n _. now rewrite Eids.
  - intros n k. unfold usent. rewrite Eids. destruct (nth_error gs n) as [g|] eqn:En.
    + rewrite (K n g En). cbn [g_own moved st_mem]. induction (idsf gs n k) as [|id ids IH]; [reflexivity|]. cbn [flat_map]. rewrite map_app, IH. f_equal.
      rewrite nth_error_map. destruct (nth_error (st_mem (g_own g)) id); reflexivity.
    + apply nth_error_None in En. rewrite (proj2 (nth_error_None gs' n)) by lia. reflexivity.
Qed.

(* -- creating *)
Lemma create_ready dw cut bufs gs : length gs = P ->
  (forall k g, nth_error gs k = Some g -> (st_size (g_own g) <= st_cap (g_own g))%nat /\ st_dims (g_own g) = length box /\
    data_width (g_own g) = dw /\ Forall (shaped (g_own g)) (stored (g_own g)) /\ st_size (g_gho g) = 0%nat) ->
  (forall k j g h, nth_error gs k = Some g -> nth_error gs j = Some h -> same_layout (g_own g) (g_gho h)) ->
  (send_om l = true -> exists e, om_entry l = Some e /\ forall k g, nth_error gs k = Some g -> (e < 2 + st_nes (g_own g))%nat) ->
  round_ok (create_round box t dw cut bufs) gs /\
  exists gs', round_all (create_round box t dw cut bufs) gs = Some gs' /\ ready gs' /\ images gs' /\
    (forall k g, nth_error gs k = Some g -> exists g', nth_error gs' k = Some g' /\ g_own g' = g_own g /\
       st_number (g_gho g') = (2 * Z.of_nat (st_size (g_gho g')))%Z) /\
    (forall n k g, nth_error gs n = Some g -> us gs' n k = if existsb (Nat.eqb k) (nbr n) then filter (nearto box t cut n k) (stored (g_own g)) else []).
Proof.
  intros HL HI HLay Hom. split; [now apply (create_round_ok box P t HP HB Ht)|].
  destruct (create_all_spec box P t dw cut bufs gs HP HB Ht HL Hdim) as (gs' & E & L' & S).
  { intros k g Hk. destruct (HI k g Hk) as (A1 & A2 & A3 & A4 & A5). repeat split; auto. unfold fits. lia. }
  { exact HLay. }
  exists gs'. split; [exact E|].
  assert (Back : forall k g', nth_error gs' k = Some g' -> exists g, nth_error gs k = Some g).
  { intros k g' Hk. destruct (nth_error gs k) as [g|] eqn:Eg; [eauto|]. apply nth_error_None in Eg. assert (k < length gs')%nat by (apply nth_error_Some; congruence). lia. }
  (* the ids *)
  assert (Eids : forall n k g, nth_error gs n = Some g -> idsf gs' n k = if existsb (Nat.eqb k) (nbr n) then
      filter (fun id => match nth_error (st_mem (g_own g)) id with Some p => nearto box t cut n k p | None => false end) (seq 0 (st_size (g_own g))) else []).
  { intros n k g Hn. destruct (S n g Hn) as (g' & S1 & S2 & S3 & _). unfold ids_for. rewrite S1.
    destruct (existsb (Nat.eqb k) (nbr n)) eqn:Ex.
    - apply existsb_exists in Ex as (k' & Hin & Ek). apply Nat.eqb_eq in Ek. subst k'. apply In_nth_error in Hin as [i Hi].
      assert (Hidx : index_of k (neighbors box n t) = Some i) by (apply index_of_nth; [apply (nb_nodup box P t HP HB Ht)|exact Hi]).
      unfold nearto. rewrite Hidx, S3. 
      assert (Hlt : (i < length (neighbors box n t))%nat). { rewrite <- (map_length fst). apply nth_error_Some. congruence. }
      rewrite (nth_error_nth _ _ _ (x := ghost_ids box (neighbors box n t) cut i (g_own g))); [reflexivity|].
      rewrite nth_error_map, nth_error_seq. destruct (Nat.ltb_spec i (length (neighbors box n t))); [reflexivity|lia].
    - rewrite (proj2 (index_of_none (neighbors box n t) k)); [reflexivity|]. intros Hin.
      assert (existsb (Nat.eqb k) (nbr n) = true) by (apply existsb_exists; exists k; split; [exact Hin|apply Nat.eqb_refl]). congruence. }
  assert (Eus : forall n k g, nth_error gs n = Some g -> us gs' n k = if existsb (Nat.eqb k) (nbr n) then filter (nearto box t cut n k) (stored (g_own g)) else []).
  { intros n k g Hn. destruct (S n g Hn) as (g' & S1 & S2 & _). destruct (HI n g Hn) as (A1 & _). unfold st_cap in A1. unfold usent. rewrite S1, S2, (Eids n k g Hn).
    destruct (existsb _ _); [|reflexivity].
    pose proof (records_filter (nearto box t cut n k) (g_own g) A1) as R. unfold records in R. unfold stored. clear - R.
    induction R as [|id p ids ps [_ Hp] R IH]; [reflexivity|]. cbn [flat_map]. rewrite Hp, IH. reflexivity. }
  assert (Egs : forall n k g kb, nth_error gs n = Some g -> process_bounds k t = Some kb -> In n (nbr k) ->
     gsent box t cut gs n k = map (rel box (center kb)) (us gs' n k)).
  { intros n k g kb Hn Hkb Hin. unfold gsent. rewrite Hn, Hkb, (Eus n k g Hn).
    rewrite (proj2 (existsb_exists (Nat.eqb k) (nbr n))); [reflexivity|]. exists k. split; [exact (neighbor_sym box P t HP HB Ht k n Hin)|apply Nat.eqb_refl]. }
  assert (Elen : forall n k, In n (nbr k) -> length (gsent box t cut gs n k) = length (idsf gs' n k) /\ length (us gs' n k) = length (idsf gs' n k)).
  { intros n k Hin. pose proof (neighbor_lt box P t HP HB Ht k n Hin) as Hn. destruct (nth_error gs n) as [g|] eqn:En. 2:{ apply nth_error_None in En. lia. }
    assert (Hk : (k < P)%nat) by (apply (neighbor_lt box P t HP HB Ht n); exact (neighbor_sym box P t HP HB Ht k n Hin)).
    destruct (leaf_exists t P k (ranks_seq box P t HP HB Ht) Hk) as (kb & _ & Hkb).
    rewrite (Egs n k g kb En Hkb Hin), map_length.
    assert (length (us gs' n k) = length (idsf gs' n k)); [|auto]. rewrite (Eus n k g En), (Eids n k g En). destruct (existsb _ _); [|reflexivity].
    destruct (HI n g En) as (A1 & _). pose proof (Forall2_len _ _ _ (records_filter (nearto box t cut n k) (g_own g) A1)) as X. unfold stored. lia. }
  assert (Hst : forall k g' kb, nth_error gs' k = Some g' -> process_bounds k t = Some kb -> stored (g_gho g') = flat_map (fun n => map (rel box (center kb)) (us gs' n k)) (nbr k)).
  { intros k g' kb Hk Hkb. destruct (Back k g' Hk) as [g Hg]. destruct (S k g Hg) as (g2 & S1 & S2 & S3 & S4 & S5 & S6 & S7 & S8). assert (g2 = g') by congruence. subst g2.
    rewrite S7. destruct (HI k g Hg) as (_ & _ & _ & _ & H0). unfold stored at 1. rewrite H0. cbn [firstn app]. apply flat_map_ext_in.
    intros n Hin. pose proof (neighbor_lt box P t HP HB Ht k n Hin) as Hn. destruct (nth_error gs n) as [gn|] eqn:En. 2:{ apply nth_error_None in En. lia. } now apply (Egs n k gn kb). }
  assert (Hsz : forall k g', nth_error gs' k = Some g' -> st_size (g_gho g') = length (flat_map (fun n => idsf gs' n k) (nbr k)) /\
       st_number (g_gho g') = (2 * Z.of_nat (st_size (g_gho g')))%Z).
  { intros k g' Hk. destruct (Back k g' Hk) as [g Hg]. destruct (S k g Hg) as (g2 & S1 & S2 & S3 & S4 & S5 & S6 & S7 & S8). assert (g2 = g') by congruence. subst g2.
    assert (A : length (flat_map (fun n => gsent box t cut gs n k) (nbr k)) = length (flat_map (fun n => idsf gs' n k) (nbr k))).
    { assert (G : forall ll, (forall n, In n ll -> In n (nbr k)) -> length (flat_map (fun n => gsent box t cut gs n k) ll) = length (flat_map (fun n => idsf gs' n k) ll)).
      { induction ll as [|n ll IH]; intros Hll; [reflexivity|]. cbn. rewrite !app_length, IH by (intros; apply Hll; now right). f_equal. apply Elen. apply Hll. now left. }
      now apply G. }
    assert (B : st_size (g_gho g') = length (stored (g_gho g'))). { unfold stored. rewrite firstn_length. unfold fits, st_cap in S5. lia. }
    rewrite S7, app_length in B. unfold stored in B. destruct (HI k g Hg) as (_ & _ & _ & _ & H0). rewrite H0 in B. cbn in B. split; [lia|]. rewrite S8. f_equal. f_equal. lia. }
  assert (Homp : forall n g p, nth_error gs n = Some g -> shaped (g_own g) p -> om_ok l p).
  { intros n g p Hn Hp Hs. destruct (Hom Hs) as (e & He & Hl). specialize (Hl n g Hn). unfold get_om. rewrite He.
    destruct Hp as (_ & _ & _ & _ & _ & Hp & _). intros Hnone. apply nth_error_None in Hnone. unfold scals in Hnone. cbn [length] in Hnone. lia. }
  split; [|split; [|split; [|exact Eus]]].
  - split; [lia|]. split; [|split].
    + intros k g' Hk. destruct (Back k g' Hk) as [g Hg]. destruct (S k g Hg) as (g2 & S1 & S2 & S3 & S4 & S5 & S6 & S7 & S8). assert (g2 = g') by congruence. subst g2.
      destruct (HI k g Hg) as (A1 & A2 & A3 & A4 & A5). rewrite S2. split; [exact A2|]. split.
      { destruct S6 as [<- _]. destruct (HLay k k g g Hg Hg) as [<- _]. exact A2. }
      split; [exact A1|]. split; [|split; [exact S5|]].
      * intros p Hp. rewrite Forall_forall in A4. specialize (A4 p Hp). split; [exact (proj1 A4)|]. split; [exact (proj1 (proj2 A4))|]. exact (Homp k g p Hg A4).
      * intros p Hp. assert (Hlt : (k < P)%nat) by (rewrite <- HL; apply nth_error_Some; congruence).
        destruct (leaf_exists t P k (ranks_seq box P t HP HB Ht) Hlt) as (kb & _ & Hkb). rewrite (Hst k g' kb Hk Hkb) in Hp.
        apply in_flat_map in Hp as (n & Hin & Hp). apply in_map_iff in Hp as (q & <- & Hq).
        pose proof (neighbor_lt box P t HP HB Ht k n Hin) as Hn. destruct (nth_error gs n) as [gn|] eqn:En. 2:{ apply nth_error_None in En. lia. }
        rewrite (Eus n k gn En) in Hq. destruct (existsb _ _); [|destruct Hq]. apply filter_In in Hq as [Hq _].
        destruct (HI n gn En) as (_ & _ & _ & B4 & _). rewrite Forall_forall in B4. pose proof (Homp n gn q En (B4 q Hq)) as X. unfold om_ok, get_om in *. exact X.
    + intros k g' n Hk id Hid. destruct (Back k g' Hk) as [g Hg]. destruct (S k g Hg) as (g2 & S1 & S2 & _). assert (g2 = g') by congruence. subst g2.
      rewrite (Eids k n g Hg) in Hid. rewrite S2. destruct (existsb _ _); [|destruct Hid]. apply filter_In in Hid as [Hid _]. apply in_seq in Hid. lia.
    + intros k g' Hk. split; [|now apply Hsz]. destruct (Back k g' Hk) as [g Hg]. destruct (S k g Hg) as (g2 & S1 & S2 & S3 & S4 & _). assert (g2 = g') by congruence. subst g2.
      rewrite S4. apply map_ext_in. intros n Hin. now apply Elen.
  - intros k g' kb Hk Hkb. rewrite (Hst k g' kb Hk Hkb). clear. induction (nbr k) as [|n ll IH]; cbn [flat_map]; [constructor|]. apply Forall2_app; [|exact IH].
    induction (us gs' n k) as [|p ps IHp]; cbn; constructor; auto. split; [reflexivity|]. split; reflexivity.
  - intros k g Hk. destruct (S k g Hk) as (g' & S1 & S2 & _). exists g'. split; [exact S1|]. split; [exact S2|]. now apply (Hsz k).
Qed.
End PERIOD.
