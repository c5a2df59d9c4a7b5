(* Ghost updates on all processors: C39. *)
From Coq Require Import String.
From Verif Require Import Lib Model_Geometry Model_Store Model_Buffer Model_Topology Model_Messages Model_Ghosts Spec_Geometry Spec_Store
  Spec_Buffer Spec_Topology Proofs_Store1 Proofs_Store2 Proofs_Store3 Proofs_Store4 Proofs_Store5 Proofs_Store6 Proofs_Buffer Proofs_Ghost
  Proofs_Topology1 Proofs_Topology2 Proofs_Topology3 Proofs_Topology4 Proofs_Messages1 Proofs_Messages2 Proofs_Messages3.
From Coq Require Import Permutation ZifyBool ZifyNat.
Local Open Scope list_scope.

Definition ucarries (box : box) (l : ghost_layout) (dims : nat) (c : list Q) (m : message) (ps : list part) : Prop :=
  fst m = length ps /\ forall i p, nth_error ps i = Some p -> block (ghost_width l dims) i (snd m) = genc box l c p (om_of l p).

Lemma update_message_spec b l s nb ids ps buf : length b = st_dims s -> length nb = st_dims s -> (st_dims s <= 4)%nat ->
  records s ids ps -> Forall (gok s l) ps ->
  exists m, update_message b l nb ids buf s = Some m /\ ucarries b l (st_dims s) (center nb) m ps /\ (fst m = 0%nat -> m = (0%nat, [])).
Proof.
  intros Hb Hn Hd Hr Hs. unfold update_message. pose proof (Forall2_len _ _ _ Hr) as Hl.
  destruct (Nat.ltb_spec 0 (length ids)) as [H0|H0].
  - destruct (pack_ghost_loop_spec b l (center nb) s ids Hb ltac:(unfold center; now rewrite map_length) Hd ps 0 (enlarge (length ids * ghost_width l (st_dims s)) buf) Hr Hs) as (b' & E & L & B & _).
    { cbn [Nat.add]. apply enlarge_len. }
    unfold pack_ghost_buffer. rewrite E. eexists. split; [reflexivity|]. split; [|cbn; lia]. split; [cbn; lia|].
    intros i p Hp. cbn [snd]. rewrite block_firstn by (assert (i < length ps)%nat by (apply nth_error_Some; congruence); lia).
    now apply B.
  - destruct ids as [|? ?]; [|cbn in H0; lia]. inversion Hr; subst. eexists. split; [reflexivity|]. split; [split; [reflexivity|intros [|i] p Hp; discriminate]|reflexivity].
Qed.

(* The ghost record g' is g with the data of p. *)
Definition refreshed (b : box) (l : ghost_layout) (c : list Q) (p g g' : part) : Prop := Proofs_Ghost.received b l c p g g'.

Lemma update_accept_all_spec (r : round gproc) (k : nat) (b : box) (l : ghost_layout) (dims : nat) (c : list Q) :
  (forall n m g, r_accept r k n m g = update_accept l m g) -> length b = dims -> length c = dims ->
  forall ms pss g, dims = st_dims (g_gho g) -> Forall2 (fun nm ps => ucarries b l dims c (snd nm) ps) ms pss ->
  Forall (Forall (fun p => length (p_x p) = dims /\ length (p_v p) = dims /\ om_ok l p)) pss ->
  (g_at g + length (concat pss) <= length (st_mem (g_gho g)))%nat ->
  (forall i g0, nth_error (st_mem (g_gho g)) i = Some g0 -> (i < g_at g + length (concat pss))%nat -> om_ok l g0) ->
  exists g', accept_all r k ms g = Some g' /\ g_own g' = g_own g /\ g_send g' = g_send g /\ g_sizes g' = g_sizes g /\
    g_at g' = (g_at g + length (concat pss))%nat /\
    length (st_mem (g_gho g')) = length (st_mem (g_gho g)) /\ st_size (g_gho g') = st_size (g_gho g) /\ st_number (g_gho g') = st_number (g_gho g) /\
    same_layout (g_gho g) (g_gho g') /\
    (forall i p g0, nth_error (concat pss) i = Some p -> nth_error (st_mem (g_gho g)) (g_at g + i) = Some g0 ->
       exists g1, nth_error (st_mem (g_gho g')) (g_at g + i) = Some g1 /\ refreshed b l c p g0 g1) /\
    (forall i, (i < g_at g)%nat \/ (g_at g + length (concat pss) <= i)%nat -> nth_error (st_mem (g_gho g')) i = nth_error (st_mem (g_gho g)) i).
Proof.
  intros Hr Hb Hc. induction ms as [|[n m] ms IH]; intros pss g Hd C Hs Hlen Hom; inversion C as [|? ps ? pss' C1 C2]; subst pss; cbn [accept_all concat].
  - exists g. cbn. rewrite Nat.add_0_r. repeat split; auto. intros [|i] p g0 E; discriminate.
  - inversion Hs as [|? ? Hs1 Hs2]; subst. cbn [snd] in C1. destruct C1 as [Cn Cb]. cbn [concat] in Hlen, Hom. rewrite app_length in Hlen.
    assert (H1 : exists g1, update_accept l m g = Some g1 /\ g_own g1 = g_own g /\ g_send g1 = g_send g /\ g_sizes g1 = g_sizes g /\
      g_at g1 = (g_at g + length ps)%nat /\ length (st_mem (g_gho g1)) = length (st_mem (g_gho g)) /\ st_size (g_gho g1) = st_size (g_gho g) /\
      st_number (g_gho g1) = st_number (g_gho g) /\ same_layout (g_gho g) (g_gho g1) /\
      (forall i p g0, nth_error ps i = Some p -> nth_error (st_mem (g_gho g)) (g_at g + i) = Some g0 ->
         exists g2, nth_error (st_mem (g_gho g1)) (g_at g + i) = Some g2 /\ refreshed b l c p g0 g2) /\
      (forall i, (i < g_at g)%nat \/ (g_at g + length ps <= i)%nat -> nth_error (st_mem (g_gho g1)) i = nth_error (st_mem (g_gho g)) i)).
    { unfold update_accept. destruct (Nat.ltb_spec 0 (fst m)) as [H0|H0].
      - set (gl := firstn (length ps) (skipn (g_at g) (st_mem (g_gho g)))).
        assert (Hgl : length gl = length ps) by (unfold gl; rewrite firstn_length, skipn_length; lia).
        assert (Hgn : forall i g0, nth_error gl i = Some g0 -> nth_error (st_mem (g_gho g)) (g_at g + i) = Some g0).
        { intros i g0 E. assert (Hi : (i < length ps)%nat) by (rewrite <- Hgl; apply nth_error_Some; congruence). unfold gl in E.
          rewrite nth_error_firstn_lt in E by lia. rewrite <- (firstn_skipn (g_at g) (st_mem (g_gho g))). rewrite nth_error_app2 by (rewrite firstn_length; lia).
          rewrite firstn_length, Nat.min_l by lia. now replace (g_at g + i - g_at g)%nat with i by lia. }
        destruct (unpack_ghost_loop_spec b l c (length b) (snd m) eq_refl Hc ps gl 0 (g_at g) (st_mem (g_gho g))) as (m' & E & L & R & K).
        { rewrite Forall_forall in Hs1. exact Hs1. }
        { intros g0 Hin. apply In_nth_error in Hin as [i Hi]. assert ((i < length ps)%nat) by (rewrite <- Hgl; apply nth_error_Some; congruence).
          apply (Hom (g_at g + i)%nat); [now apply Hgn|]. rewrite app_length. lia. }
        { exact Hgl. }
        { exact Hgn. }
        { intros i p Hp. cbn [Nat.add]. now apply Cb. }
        unfold unpack_ghost_buffer. rewrite <- Hd, Cn, E. cbn [option_map]. eexists. split; [reflexivity|]. cbn [g_own g_send g_sizes g_at g_gho st_size st_number set_mem st_mem].
        split; [reflexivity|]. split; [reflexivity|]. split; [reflexivity|]. split; [lia|]. split; [exact L|]. split; [reflexivity|]. split; [reflexivity|]. split; [repeat split|]. split; [|exact K].
        intros i p g0 Hp Hg. destruct (nth_error gl i) as [g3|] eqn:Eg. 2:{ apply nth_error_None in Eg. assert (i < length ps)%nat by (apply nth_error_Some; congruence). lia. }
        destruct (R i p g3 Hp Eg) as (g' & X1 & X2). apply Hgn in Eg. assert (g3 = g0) by congruence. subst g3. exists g'. auto.
      - assert (ps = []) by (destruct ps; [reflexivity|cbn in Cn; lia]). subst ps. exists g. cbn [length]. rewrite Nat.add_0_r. repeat split; auto. intros [|i] p g0 E; discriminate. }
    destruct H1 as (g1 & E1 & A1 & A2 & A3 & A4 & A5 & A6 & A6' & A7 & A8 & A9).
    rewrite Hr, E1.
    destruct (IH pss' g1) as (g' & B0 & B1 & B2 & B3 & B4 & B5 & B6 & B6' & B7 & B8 & B9).
    { rewrite Hd. apply A7. }
    { exact C2. }
    { exact Hs2. }
    { rewrite A4, A5. lia. }
    { intros i g0 Hi Hlt. rewrite A4 in Hlt. destruct (Nat.lt_ge_cases i (g_at g + length ps)) as [Hi1|Hi1].
      - destruct (Nat.lt_ge_cases i (g_at g)) as [Hi2|Hi2].
        + rewrite A9 in Hi by lia. apply (Hom i); [exact Hi|]. rewrite app_length. lia.
        + destruct (nth_error ps (i - g_at g)) as [p|] eqn:Ep. 2:{ apply nth_error_None in Ep. lia. }
          destruct (nth_error (st_mem (g_gho g)) i) as [gg|] eqn:Eg. 2:{ apply nth_error_None in Eg. lia. }
          destruct (A8 (i - g_at g)%nat p gg Ep) as (g2 & X1 & X2). { now replace (g_at g + (i - g_at g))%nat with i by lia. }
          replace (g_at g + (i - g_at g))%nat with i in X1 by lia. assert (g2 = g0) by congruence. subst g2.
          assert (Ho : om_ok l gg) by (apply (Hom i gg Eg); rewrite app_length; lia).
          intros Hsend. specialize (Ho Hsend). destruct X2 as (_ & _ & X3 & _). unfold get_om in *. destruct (om_entry l) as [e|]; [|congruence].
          rewrite X3, Hsend. intros Hnone. apply nth_error_None in Hnone. rewrite set_nth_len in Hnone. apply Ho. now apply nth_error_None.
      - rewrite A9 in Hi by lia. apply (Hom i); [exact Hi|]. rewrite app_length. lia. }
    exists g'. split; [exact B0|]. split; [congruence|]. split; [congruence|]. split; [congruence|]. split; [rewrite app_length; lia|]. split; [congruence|].
    split; [congruence|]. split; [congruence|]. split; [eapply same_layout_trans; eauto|]. split.
    + intros i p g0 Hp Hg. destruct (Nat.lt_ge_cases i (length ps)) as [Hi|Hi].
      * rewrite nth_error_app1 in Hp by exact Hi. destruct (A8 i p g0 Hp Hg) as (g2 & X1 & X2). exists g2. split; [|exact X2]. rewrite B9 by (left; lia). exact X1.
      * rewrite nth_error_app2 in Hp by exact Hi. rewrite A4 in B8. specialize (B8 (i - length ps)%nat p g0 Hp).
        replace (g_at g + length ps + (i - length ps))%nat with (g_at g + i)%nat in B8 by lia. apply B8. rewrite A9 by (right; lia). exact Hg.
    + intros i Hi. rewrite app_length in Hi. rewrite B9 by lia. apply A9. lia.
Qed.

Section UPDATE.
Variables (box : box) (P : nat) (t : kdtree) (l : ghost_layout) (bufs : nat -> nat -> list word) (gs : list gproc).
Hypothesis HP : (2 <= P)%nat.
Hypothesis HB : nonempty (bounds_of box).
Hypothesis Ht : t = topology_tree P (bounds_of box).
Hypothesis HL : length gs = P.
Hypothesis Hdim : (length box <= 4)%nat.

(* The ids of the particles of n that are ghosts on k. *)
Definition ids_for (n k : nat) : list nat :=
  match nth_error gs n, index_of k (neighbors box n t) with Some g, Some i => nth i (g_send g) [] | _, _ => [] end.
(* The particles of n that are ghosts on k. *)
Definition usent (n k : nat) : list part :=
  match nth_error gs n with
  | Some g => flat_map (fun id => match nth_error (st_mem (g_own g)) id with Some p => [p] | None => [] end) (ids_for n k)
  | None => [] end.

Hypothesis HI : forall k g, nth_error gs k = Some g -> st_dims (g_own g) = length box /\ st_dims (g_gho g) = length box /\
  (st_size (g_own g) <= length (st_mem (g_own g)))%nat /\ (forall p, In p (stored (g_own g)) -> gok (g_own g) l p) /\
  fits (g_gho g) /\ (forall p, In p (stored (g_gho g)) -> om_ok l p).
Hypothesis HS : forall k g n, nth_error gs k = Some g -> forall id, In id (ids_for k n) -> (id < st_size (g_own g))%nat.
Hypothesis HZ : forall k g, nth_error gs k = Some g ->
  g_sizes g = map (fun n => length (ids_for n k)) (map fst (neighbors box k t)) /\
  st_size (g_gho g) = length (flat_map (fun n => ids_for n k) (map fst (neighbors box k t))).

Lemma usent_records n k g : nth_error gs n = Some g -> records (g_own g) (ids_for n k) (usent n k) /\ length (usent n k) = length (ids_for n k) /\
  Forall (gok (g_own g) l) (usent n k).
Proof.
  intros Hn. destruct (HI n g Hn) as (_ & _ & Hc & Hg & _). assert (Hs := HS n g k Hn). unfold usent. rewrite Hn.
  induction (ids_for n k) as [|id ids IH]; cbn [flat_map]; [repeat split; constructor|].
  assert (Hid : (id < st_size (g_own g))%nat) by (apply Hs; now left).
  destruct (nth_error (st_mem (g_own g)) id) as [p|] eqn:Ep. 2:{ apply nth_error_None in Ep. lia. }
  destruct IH as (I1 & I2 & I3); [intros; apply Hs; now right|]. cbn [app]. repeat split.
  - constructor; [split; auto|exact I1].
  - cbn. lia.
  - constructor; [|exact I3]. apply Hg. unfold stored. apply (nth_error_In _ id). now rewrite nth_error_firstn_lt by lia.
Qed.

Lemma update_send k g : nth_error gs k = Some g -> exists ms, update_local box t l (bufs k) k g =
    Some (combine (map fst (neighbors box k t)) ms, mkG (g_own g) (g_gho g) (g_send g) (g_sizes g) 0) /\
    Forall2 (fun m rb => ucarries box l (length box) (center (snd rb)) m (usent k (fst rb)) /\ (fst m = 0%nat -> m = (0%nat, []))) ms (neighbors box k t).
Proof.
  intros Hk. destruct (HI k g Hk) as (Hd & _ & Hc & Hs & _). unfold update_local.
  set (nbs := neighbors box k t).
  pose proof (neighbors_NoDup box k t (ranks_nodup box P t HP HB Ht)) as Hnd. fold nbs in Hnd.
  destruct (sequence_map (fun inb => update_message box l (snd (snd inb)) (nth (fst inb) (g_send g) []) (bufs k (fst inb)) (g_own g))
     (fun inb m => ucarries box l (length box) (center (snd (snd inb))) m (usent k (fst (snd inb))) /\ (fst m = 0%nat -> m = (0%nat, []))) (combine (seq 0 (length nbs)) nbs)) as (ms & E & F).
  { intros [i [r nb]] Hi. cbn [fst snd]. apply in_combine_seq in Hi as [_ Hi]. rewrite Nat.sub_0_r in Hi.
    assert (Hidx : index_of r nbs = Some i). { apply index_of_nth; [exact Hnd|]. rewrite nth_error_map, Hi. reflexivity. }
    assert (El : nth i (g_send g) [] = ids_for k r). { unfold ids_for. rewrite Hk. fold nbs. now rewrite Hidx. }
    rewrite El. destruct (usent_records k r g Hk) as (R1 & R2 & R3).
    assert (Hnb : length nb = length box). { apply nth_error_In in Hi. apply neighbors_in in Hi as (_ & _ & Hi & _). exact (leaf_len box P t HP HB Ht r nb Hi). }
    destruct (update_message_spec box l (g_own g) nb (ids_for k r) (usent k r) (bufs k i)) as (m & E1 & E2 & E3); auto; try congruence.
    exists m. rewrite Hd in E2. auto. }
  exists ms. rewrite E. split; [reflexivity|]. clear - F.
  assert (G : forall ll off ms, Forall2 (fun (inb : nat * (nat * bounds)) m => ucarries box l (length box) (center (snd (snd inb))) m (usent k (fst (snd inb))) /\ (fst m = 0%nat -> m = (0%nat, []))) (combine (seq off (length ll)) ll) ms ->
     Forall2 (fun m rb => ucarries box l (length box) (center (snd rb)) m (usent k (fst rb)) /\ (fst m = 0%nat -> m = (0%nat, []))) ms ll).
  { induction ll as [|[r nb] ll IH]; intros off ms' H; cbn in H; inversion H; subst; cbn; constructor; auto. now apply (IH (S off)). }
  now apply (G nbs 0%nat).
Qed.

Lemma update_round_ok : round_ok (update_round box t l bufs) gs.
Proof.
  constructor; cbn [r_tag r_nbs r_local r_announce r_expect r_accept update_round].
  - discriminate.
  - intros k _. apply (nb_nodup box P t HP HB Ht).
  - intros k n Hk Hn. rewrite HL in *. now apply (nb_sym box P t HP HB Ht).
  - intros k s out s' Hk E. destruct (update_send k s Hk) as (ms & E1 & C). rewrite E1 in E. injection E as <- <-.
    pose proof (Forall2_len _ _ _ C) as L. split; [apply map_fst_combine; rewrite map_length; lia|].
    intros d m Hin Hz. apply in_combine_r in Hin. apply In_nth_error in Hin as [i Hi]. destruct (Forall2_nth _ _ _ C i m Hi) as (b & _ & _ & X). auto.
  - intros _. split.
    + intros k n s sn out s' out' sn' m Hk Hn E1 E2 Hin. destruct (update_send k s Hk) as (ms & X1 & _). rewrite X1 in E1. injection E1 as <- <-. cbn [g_sizes].
      destruct (update_send n sn Hn) as (msn & X2 & C). rewrite X2 in E2. injection E2 as <- <-.
      destruct (HZ k s Hk) as [Hz _]. rewrite Hz.
      assert (Hkn : In k (map fst (neighbors box n t))). { apply in_combine_l in Hin. exact Hin. }
      assert (Hnk : In n (map fst (neighbors box k t))). { apply (neighbor_sym box P t HP HB Ht n k Hkn). }
      apply In_nth_error in Hnk as [i Hi]. assert (Hidx : index_of n (neighbors box k t) = Some i) by (apply index_of_nth; [apply (nb_nodup box P t HP HB Ht)|exact Hi]).
      rewrite Hidx. rewrite (nth_error_nth (map (fun n0 => length (ids_for n0 k)) (map fst (neighbors box k t))) i 0%nat (x := length (ids_for n k))) by (rewrite nth_error_map, Hi; reflexivity).
      destruct (usent_records n k sn Hn) as (_ & <- & _).
      clear - Hin C. revert Hin. generalize (neighbors box n t) as nbs, C. clear C. intros nbs C. induction C as [|m0 [r b] ms nbs [[C0 _] _] C IH]; cbn; [intros []|].
      intros [Hin|Hin]; [injection Hin as <- <-; cbn in C0; auto|]. auto.
    + intros k a b n m E n'. unfold update_accept in E. destruct (0 <? fst m)%nat; [|now injection E as <-].
      destruct (unpack_ghost_buffer _ _ _ _ _); [|discriminate]. injection E as <-. reflexivity.
Qed.

Lemma update_all_spec : exists gs', round_all (update_round box t l bufs) gs = Some gs' /\ length gs' = P /\
  forall k g kb, nth_error gs k = Some g -> process_bounds k t = Some kb -> exists g', nth_error gs' k = Some g' /\ g_own g' = g_own g /\ g_send g' = g_send g /\
    g_sizes g' = g_sizes g /\ fits (g_gho g') /\ st_size (g_gho g') = st_size (g_gho g) /\ st_number (g_gho g') = st_number (g_gho g) /\
    same_layout (g_gho g) (g_gho g') /\
    length (flat_map (fun n => usent n k) (map fst (neighbors box k t))) = st_size (g_gho g) /\
    forall i p g0, nth_error (flat_map (fun n => usent n k) (map fst (neighbors box k t))) i = Some p -> nth_error (stored (g_gho g)) i = Some g0 ->
      exists g1, nth_error (stored (g_gho g')) i = Some g1 /\ refreshed box l (center kb) p g0 g1.
Proof.
  unfold round_all. cbn [r_local update_round].
  destruct (sequence_map (fun ks => update_local box t l (bufs (fst ks)) (fst ks) (snd ks))
    (fun ks out => exists ms, out = (combine (map fst (neighbors box (fst ks) t)) ms, mkG (g_own (snd ks)) (g_gho (snd ks)) (g_send (snd ks)) (g_sizes (snd ks)) 0) /\
      Forall2 (fun m rb => ucarries box l (length box) (center (snd rb)) m (usent (fst ks) (fst rb)) /\ (fst m = 0%nat -> m = (0%nat, []))) ms (neighbors box (fst ks) t))
    (combine (seq 0 (length gs)) gs)) as (outs & E & F).
  { intros [k g] Hin. cbn [fst snd]. apply in_combine_seq in Hin as [_ Hk]. rewrite Nat.sub_0_r in Hk.
    destruct (update_send k g Hk) as (ms & E & C). rewrite E. eauto. }
  rewrite E. pose proof (Forall2_len _ _ _ F) as Lo. rewrite combine_length, seq_length, Nat.min_id in Lo.
  assert (S : forall n g, nth_error gs n = Some g -> exists ms, nth_error outs n = Some (combine (map fst (neighbors box n t)) ms, mkG (g_own g) (g_gho g) (g_send g) (g_sizes g) 0) /\
      Forall2 (fun m rb => ucarries box l (length box) (center (snd rb)) m (usent n (fst rb)) /\ (fst m = 0%nat -> m = (0%nat, []))) ms (neighbors box n t)).
  { intros n g Hn. destruct (Forall2_nth _ _ _ F n (n, g)) as (o & Eo & ms & -> & C). { rewrite combine_seq_nth, Hn. reflexivity. }
    exists ms. auto. }
  destruct (sequence_map (fun ko => match delivered (update_round box t l bufs) (fst ko) outs with
      | Some ms => accept_all (update_round box t l bufs) (fst ko) ms (snd (snd ko)) | None => None end)
    (fun ko g' => forall g kb, nth_error gs (fst ko) = Some g -> process_bounds (fst ko) t = Some kb -> g_own g' = g_own g /\ g_send g' = g_send g /\
      g_sizes g' = g_sizes g /\ fits (g_gho g') /\ st_size (g_gho g') = st_size (g_gho g) /\ st_number (g_gho g') = st_number (g_gho g) /\ same_layout (g_gho g) (g_gho g') /\
      length (flat_map (fun n => usent n (fst ko)) (map fst (neighbors box (fst ko) t))) = st_size (g_gho g) /\
      forall i p g0, nth_error (flat_map (fun n => usent n (fst ko)) (map fst (neighbors box (fst ko) t))) i = Some p -> nth_error (stored (g_gho g)) i = Some g0 ->
        exists g1, nth_error (stored (g_gho g')) i = Some g1 /\ refreshed box l (center kb) p g0 g1)
    (combine (seq 0 (length outs)) outs)) as (gs' & E' & F').
  { intros [k out] Hin. cbn [fst snd]. apply in_combine_seq in Hin as [_ Hk]. rewrite Nat.sub_0_r in Hk.
    assert (Hlt : (k < P)%nat). { rewrite <- HL, Lo. apply nth_error_Some. congruence. }
    destruct (nth_error gs k) as [g|] eqn:Eg. 2:{ apply nth_error_None in Eg. lia. }
    destruct (S k g Eg) as (ms0 & Eo & _). rewrite Hk in Eo. injection Eo as ->. cbn [fst snd].
    destruct (leaf_exists t P k (ranks_seq box P t HP HB Ht) Hlt) as (kb & Hkb & Hpb).
    pose proof (leaf_len box P t HP HB Ht k kb Hkb) as Hkbl.
    unfold delivered. cbn [r_nbs update_round].
    destruct (sequence_map (fun n => match nth_error outs n with Some o => option_map (pair n) (message_to k (fst o)) | None => None end)
      (fun n nm => ucarries box l (length box) (center kb) (snd nm) (usent n k)) (map fst (neighbors box k t))) as (ims & Ei & Fi).
    { intros n Hn. pose proof (neighbor_lt box P t HP HB Ht k n Hn) as Hnlt. destruct (nth_error gs n) as [gn|] eqn:Egn. 2:{ apply nth_error_None in Egn. lia. }
      destruct (S n gn Egn) as (msn & Eon & Cn). rewrite Eon. cbn [fst].
      pose proof (neighbor_sym box P t HP HB Ht k n Hn) as Hkn. apply In_nth_error in Hkn as [i Hi].
      assert (Hrb : exists b, nth_error (neighbors box n t) i = Some (k, b)).
      { rewrite nth_error_map in Hi. destruct (nth_error (neighbors box n t) i) as [[r b]|]; [|discriminate]. cbn in Hi. injection Hi as ->. eauto. }
      destruct Hrb as (b & Hb).
      assert (b = kb). { apply nth_error_In in Hb. apply neighbors_in in Hb as (_ & _ & Hb & _).
        pose proof (process_bounds_leaf t k b (ranks_nodup box P t HP HB Ht) Hb). congruence. }
      subst b. destruct (Forall2_nth2 _ _ _ Cn i _ Hb) as (m & Em & Cm & _). cbn [fst snd] in Cm.
      rewrite (message_to_spec _ msn k i m); auto. 2:{ apply (nb_nodup box P t HP HB Ht). }
      exists (n, m). auto. }
    rewrite Ei.
    destruct (HI k g Eg) as (_ & Hdg & _ & _ & Hf & Hom). destruct (HZ k g Eg) as [_ Hsz].
    assert (Hlen : length (concat (map (fun n => usent n k) (map fst (neighbors box k t)))) = st_size (g_gho g)).
    { rewrite Hsz. rewrite <- flat_map_concat_map.
      assert (G : forall ll, (forall n, In n ll -> (n < P)%nat) -> length (flat_map (fun n => usent n k) ll) = length (flat_map (fun n => ids_for n k) ll)).
      { induction ll as [|n ll IH]; intros Hll; [reflexivity|]. cbn. rewrite !app_length. rewrite IH by (intros; apply Hll; now right). f_equal.
        assert (Hn : (n < P)%nat) by (apply Hll; now left). destruct (nth_error gs n) as [gn|] eqn:Egn. 2:{ apply nth_error_None in Egn. lia. }
        now destruct (usent_records n k gn Egn) as (_ & -> & _). }
      apply G. intros n Hn. exact (neighbor_lt box P t HP HB Ht k n Hn). }
    unfold fits, st_cap in Hf.
    destruct (update_accept_all_spec (update_round box t l bufs) k box l (length box) (center kb) ltac:(reflexivity) eq_refl
       ltac:(unfold center; now rewrite map_length) ims (map (fun n => usent n k) (map fst (neighbors box k t)))
       (mkG (g_own g) (g_gho g) (g_send g) (g_sizes g) 0)) as (g' & A1 & A2 & A3 & A4 & A5 & A6 & A7 & A7' & A8 & A9 & A10).
    { now symmetry. }
    { clear - Fi. induction Fi; cbn; constructor; auto. }
    { apply Forall_forall. intros ll Hll. apply in_map_iff in Hll as (n & <- & Hn). pose proof (neighbor_lt box P t HP HB Ht k n Hn) as Hnlt.
      destruct (nth_error gs n) as [gn|] eqn:Egn. 2:{ apply nth_error_None in Egn. lia. }
      destruct (usent_records n k gn Egn) as (_ & _ & R3). destruct (HI n gn Egn) as (Hdn & _). eapply Forall_impl; [|exact R3].
      intros p (G1 & G2 & G3). rewrite Hdn in *. auto. }
    { cbn [g_at g_gho]. rewrite Hlen. lia. }
    { cbn [g_at g_gho]. intros i g0 Hi Hlt'. rewrite Hlen in Hlt'. apply Hom. unfold stored. apply (nth_error_In _ i). rewrite nth_error_firstn_lt by lia. exact Hi. }
    exists g'. split; [exact A1|]. intros g0 kb0 Eg0 Ekb0. assert (g0 = g) by congruence. subst g0. assert (kb0 = kb) by congruence. subst kb0.
    cbn [g_own g_gho g_send g_sizes g_at] in *. rewrite <- flat_map_concat_map in *.
    split; [exact A2|]. split; [exact A3|]. split; [exact A4|]. split; [unfold fits, st_cap; lia|]. split; [exact A7|]. split; [exact A7'|]. split; [exact A8|]. split; [exact Hlen|].
    intros i p g0 Hp Hg. assert (Hi : (i < st_size (g_gho g))%nat) by (rewrite <- Hlen; apply nth_error_Some; congruence).
    unfold stored in Hg. rewrite nth_error_firstn_lt in Hg by lia. destruct (A9 i p g0 Hp Hg) as (g1 & X1 & X2). exists g1. split; [|exact X2].
    unfold stored. rewrite nth_error_firstn_lt by lia. exact X1. }
  exists gs'. split; [exact E'|]. pose proof (Forall2_len _ _ _ F') as L'. rewrite combine_length, seq_length, Nat.min_id in L'. split; [lia|].
  intros k g kb Hk Hkb. destruct (nth_error outs k) as [o|] eqn:Eo. 2:{ apply nth_error_None in Eo. assert (k < length gs)%nat by (apply nth_error_Some; congruence). lia. }
  destruct (Forall2_nth _ _ _ F' k (k, o)) as (g' & Eg' & R). { rewrite combine_seq_nth, Eo. reflexivity. }
  exists g'. split; [exact Eg'|]. now apply (R g kb).
Qed.
End UPDATE.
