(* The rounds of the code satisfy the conditions of Proofs_Messages2; creation of ghosts on all processors: C37, C39, C53. *)
From Coq Require Import String.
From Verif Require Import Lib Model_Geometry Model_Store Model_Buffer Model_Topology Model_Messages Model_Ghosts Spec_Geometry Spec_Store
  Spec_Buffer Spec_Topology Proofs_Store1 Proofs_Store2 Proofs_Store3 Proofs_Store4 Proofs_Store5 Proofs_Store6 Proofs_Buffer Proofs_Ghost
  Proofs_Topology1 Proofs_Topology2 Proofs_Topology3 Proofs_Topology4 Proofs_Messages1 Proofs_Messages2.
From Coq Require Import Permutation ZifyBool ZifyNat.
Local Open Scope list_scope.

Lemma send_all_len dw bufs : forall lists i s ms s', send_all dw lists bufs i s = Some (ms, s') -> length ms = length lists /\
  forall m, In m ms -> fst m = 0%nat -> m = (0%nat, []).
Proof.
  induction lists as [|ids lists IH]; intros i s ms s' E; cbn in E.
  - injection E as <- <-. split; [reflexivity|intros m []].
  - destruct (send_particle_data dw ids (bufs i) s) as [[m s1]|] eqn:E1; [|discriminate].
    destruct (send_all dw lists bufs (S i) s1) as [[ms2 s2]|] eqn:E2; [|discriminate]. injection E as <- <-.
    destruct (IH _ _ _ _ E2) as [H1 H2]. split; [cbn; lia|]. intros m' [<-|Hin]; [|auto].
    unfold send_particle_data in E1. destruct (0 <? length ids)%nat eqn:El.
    + destruct (pack_buffer dw ids (bufs i) true s) as [[b s1']|]; [|discriminate]. injection E1 as <- <-. cbn. intros Hz. lia.
    + injection E1 as <- <-. cbn. intros ->. reflexivity.
Qed.

Lemma map_fst_combine {A B} (a : list A) (b : list B) : length a = length b -> map fst (combine a b) = a.
Proof. revert b. induction a as [|x a IH]; intros [|y b] H; cbn in *; try discriminate; [reflexivity|]. f_equal. apply IH. lia. Qed.

Lemma exchange_send_out box t k dw bufs s out s' : exchange_send box t k dw bufs s = Some (out, s') ->
  map fst out = map fst (neighbors box k t) /\ forall d m, In (d, m) out -> fst m = 0%nat -> m = (0%nat, []).
Proof.
  unfold exchange_send. destruct (process_bounds k t) as [pb|]; [|discriminate]. destruct (neighbors box k t) as [|nb nbs] eqn:En.
  - intros E. injection E as <- <-. split; [reflexivity|intros d m []].
  - rewrite <- En. destruct (send_all _ _ _ _ _) as [[ms s1]|] eqn:E1; [|discriminate]. destruct (doParticleRemoval s1); [|discriminate].
    intros E. injection E as <- <-. destruct (send_all_len _ _ _ _ _ _ _ E1) as [L Z]. rewrite map_length, seq_length in L.
    split; [apply map_fst_combine; now rewrite map_length|]. intros d m Hin. apply in_combine_r in Hin. auto.
Qed.

Section NB.
Variables (box : box) (P : nat) (t : kdtree).
Hypothesis HP : (2 <= P)%nat.
Hypothesis HB : nonempty (bounds_of box).
Hypothesis Ht : t = topology_tree P (bounds_of box).

Lemma nb_sym k n : (k < P)%nat -> In n (map fst (neighbors box k t)) -> (n < P)%nat /\ In k (map fst (neighbors box n t)).
Proof. intros Hk Hn. split; [exact (neighbor_lt box P t HP HB Ht k n Hn)|exact (neighbor_sym box P t HP HB Ht k n Hn)]. Qed.
Lemma nb_nodup k : NoDup (map fst (neighbors box k t)).
Proof. apply neighbors_NoDup. apply (ranks_nodup box P t HP HB Ht). Qed.

Lemma exchange_round_ok dw bufs ss : length ss = P -> round_ok (exchange_round box t dw bufs) ss.
Proof.
  intros HL. constructor; cbn [r_tag r_nbs r_local r_announce r_expect r_accept exchange_round].
  - discriminate.
  - intros k _. apply nb_nodup.
  - intros k n Hk Hn. rewrite HL in *. now apply nb_sym.
  - intros k s out s' _ E. eapply exchange_send_out; eauto.
  - discriminate.
Qed.
Lemma exchange_round_g_ok dw bufs ss : length ss = P -> round_ok (exchange_round_g box t dw bufs) ss.
Proof.
  intros HL. constructor; cbn [r_tag r_nbs r_local r_announce r_expect r_accept exchange_round_g].
  - discriminate.
  - intros k _. apply nb_nodup.
  - intros k n Hk Hn. rewrite HL in *. now apply nb_sym.
  - intros k s out s' _ E. destruct (exchange_send box t k dw (bufs k) (g_own s)) as [[o s1]|] eqn:E1; [|discriminate]. injection E as <- <-.
    eapply exchange_send_out; eauto.
  - discriminate.
Qed.
Lemma local_round_ok {T} (f : nat -> T -> option T) ss : round_ok (local_round f) ss.
Proof.
  constructor; cbn [r_tag r_nbs r_local r_announce r_expect r_accept local_round]; try discriminate.
  - intros; constructor.
  - intros k n _ [].
  - intros k s out s' _ E. destruct (f k s); [|discriminate]. cbn in E. injection E as <- <-. split; [reflexivity|intros d m []].
Qed.

Lemma create_round_ok dw cut bufs ss : length ss = P -> round_ok (create_round box t dw cut bufs) ss.
Proof.
  intros HL. constructor; cbn [r_tag r_nbs r_local r_announce r_expect r_accept create_round].
  - discriminate.
  - intros k _. apply nb_nodup.
  - intros k n Hk Hn. rewrite HL in *. now apply nb_sym.
  - intros k s out s' _ E. unfold create_local in E. destruct (4 <? length box)%nat; [discriminate|].
    destruct (sequence _) as [ms|] eqn:Es in E; [|discriminate]. injection E as <- <-. apply sequence_inv in Es.
    pose proof (Forall2_len _ _ _ Es) as L. rewrite combine_length, seq_length, Nat.min_id in L.
    split; [apply map_fst_combine; now rewrite map_length|]. intros d m Hin Hz. apply in_combine_r in Hin. apply In_nth_error in Hin as [i Hi].
    destruct (Forall2_nth2 _ _ _ Es i m Hi) as (a & _ & Ea). unfold send_relative in Ea. destruct (0 <? length _)%nat eqn:El in Ea.
    + destruct (pack_buffer_relative _ _ _ _ _ _); [|discriminate]. injection Ea as <-. cbn in Hz. lia.
    + injection Ea as <-. cbn in *. now rewrite Hz.
  - discriminate.
Qed.

Lemma exchange_round_all dw bufs ss : round_all (exchange_round box t dw bufs) ss = exchange_all box t dw bufs ss.
Proof.
  unfold round_all, exchange_all. cbn [r_local exchange_round].
  destruct (sequence _) as [outs|]; [|reflexivity]. f_equal. apply map_ext. intros [k o]. cbn [fst snd].
  unfold delivered, incoming. cbn [r_nbs exchange_round].
  assert (G : forall l, match sequence (map (fun n => match nth_error outs n with Some o => option_map (pair n) (message_to k (fst o)) | None => None end) l) with
     | Some ms => accept_all (exchange_round box t dw bufs) k ms (snd o) | None => None end =
     match sequence (map (fun n => match nth_error outs n with Some o => message_to k (fst o) | None => None end) l) with
     | Some ms => exchange_recv dw ms (snd o) | None => None end).
  { intros l. destruct o as [out s]. cbn [snd]. revert s. unfold exchange_recv. induction l as [|n l IH]; intros s; [reflexivity|]. cbn [map sequence].
    destruct (nth_error outs n) as [on|]; [|reflexivity]. destruct (message_to k (fst on)) as [m|]; [|reflexivity]. cbn [option_map].
    destruct (sequence (map (fun n0 => match nth_error outs n0 with Some o => option_map (pair n0) (message_to k (fst o)) | None => None end) l)) as [a|] eqn:Ea,
             (sequence (map (fun n0 => match nth_error outs n0 with Some o => message_to k (fst o) | None => None end) l)) as [b|] eqn:Eb.
    - cbn [accept_all recv_all exchange_round r_accept]. destruct (recv_new_particle_data dw m s) as [s1|]; [|reflexivity]. apply IH.
    - exfalso. clear - Ea Eb. revert a Ea Eb. induction l as [|n l IHl]; intros a Ea Eb; [discriminate|]. cbn in Ea, Eb.
      destruct (nth_error outs n) as [on|]; [|discriminate]. destruct (message_to k (fst on)) as [m|]; [|discriminate]. cbn in Ea.
      destruct (sequence (map _ l)) as [a'|] in Ea, IHl; [|discriminate]. destruct (sequence (map _ l)) in Eb, IHl; [discriminate|]. now apply (IHl a').
    - exfalso. clear - Ea Eb. revert b Ea Eb. induction l as [|n l IHl]; intros b Ea Eb; [discriminate|]. cbn in Ea, Eb.
      destruct (nth_error outs n) as [on|]; [|discriminate]. destruct (message_to k (fst on)) as [m|]; [|discriminate]. cbn in Ea.
      destruct (sequence (map _ l)) as [a'|] in Ea, IHl; [discriminate|]. destruct (sequence (map _ l)) as [b'|] in Eb, IHl; [|discriminate]. now apply (IHl b').
    - reflexivity. }
  apply G.
Qed.
End NB.

(* ------------------------------------------------------------------ creating ghosts *)
Definition rel (box : box) (c : list Q) (p : part) : part := set_x (relative_position box (p_x p) c) p.

Lemma rel_shaped box c s p : length box = st_dims s -> length c = st_dims s -> shaped s p -> shaped s (rel box c p).
Proof.
  intros Hb Hc (H1 & H2 & H3 & H4 & H5 & H6 & H7). unfold rel, set_x. repeat split; cbn; auto. rewrite relative_length; congruence.
Qed.

Lemma pack_relative_spec b c s ids : length b = st_dims s -> length c = st_dims s -> (st_dims s <= 4)%nat ->
  forall ps j buf, records s ids ps -> Forall (shaped s) ps ->
  ((j + length ids) * data_width s <= length buf)%nat ->
  exists buf', pack_relative_loop b c (data_width s) j ids buf s = Some buf' /\ length buf' = length buf /\
    (forall i p, nth_error ps i = Some p -> block (data_width s) (j + i) buf' = enc (rel b c p)) /\
    (forall i, (i < j)%nat -> block (data_width s) i buf' = block (data_width s) i buf).
Proof.
  intros Hb Hc Hd. set (w := data_width s). induction ids as [|id ids IH]; intros ps j buf Hr Hg Hl; cbn [pack_relative_loop].
  - inversion Hr; subst. exists buf. split; [reflexivity|]. split; [reflexivity|]. split; [intros [|i] p E; discriminate|reflexivity].
  - inversion Hr as [|? p ? ps' [Hp1 Hp2] Hr' e1 e2]; subst. inversion Hg as [|? ? G1 Hg']; subst. cbn [length] in Hl.
    rewrite Hp2. destruct (Nat.ltb_spec 4 (st_dims s)); [lia|].
    pose proof (rel_shaped b c s p Hb Hc G1) as G2. fold (rel b c p). unfold w. rewrite (pack_one_write s j (rel b c p) buf G2) by (fold w; nia). fold w.
    assert (Hlen : length (enc (rel b c p)) = w) by (now apply enc_len).
    destruct (write_at_some (w * j) (enc (rel b c p)) buf) as [b1 E1]; [rewrite Hlen; nia|]. rewrite E1.
    pose proof (fun j' => write_at_block w j j' _ buf b1 Hlen E1) as Hblk.
    apply write_at_inv in E1 as (_ & _ & L1).
    destruct (IH ps' (S j) b1 Hr' Hg') as (b' & E & L & B1 & B2); [rewrite L1; nia|].
    exists b'. split; [exact E|]. split; [congruence|]. split.
    + intros [|i] q Eq; cbn in Eq.
      * injection Eq as <-. rewrite Nat.add_0_r, B2 by lia. rewrite Hblk, Nat.eqb_refl. reflexivity.
      * replace (j + S i)%nat with (S j + i)%nat by lia. now apply B1.
    + intros i Hi. rewrite B2 by lia. rewrite Hblk. destruct (Nat.eqb_spec i j); [lia|reflexivity].
Qed.

Lemma send_relative_spec b s nb ids ps buf : length b = st_dims s -> length nb = st_dims s -> (st_dims s <= 4)%nat ->
  records s ids ps -> Forall (shaped s) ps ->
  exists m, send_relative b (data_width s) nb ids buf s = Some m /\ carries (data_width s) m (map (rel b (center nb)) ps).
Proof.
  intros Hb Hn Hd Hr Hs. unfold send_relative. pose proof (Forall2_len _ _ _ Hr) as Hl.
  destruct (Nat.ltb_spec 0 (length ids)) as [H0|H0].
  - destruct (pack_relative_spec b (center nb) s ids Hb ltac:(unfold center; now rewrite map_length) Hd ps 0 (enlarge (length ids * data_width s) buf) Hr Hs) as (b' & E & L & B & _).
    { cbn [Nat.add]. apply enlarge_len. }
    unfold pack_buffer_relative. rewrite E. eexists. split; [reflexivity|]. split; [cbn; rewrite map_length; lia|].
    intros i p Hp. cbn [snd]. apply nth_error_split_map in Hp as (q & Eq & ->). rewrite block_firstn by (assert (i < length ps)%nat by (apply nth_error_Some; congruence); lia).
    now apply B.
  - destruct ids as [|? ?]; [|cbn in H0; lia]. inversion Hr; subst. eexists. split; [reflexivity|]. split; [reflexivity|intros [|i] p Hp; discriminate].
Qed.

(* Receiving into the ghost list. *)
Lemma create_accept_all_spec (r : round gproc) (k : nat) dw : (forall n m g, r_accept r k n m g = create_accept dw m g) ->
  forall ms pss g, dw = data_width (g_gho g) -> fits (g_gho g) -> Forall2 (fun nm ps => carries dw (snd nm) ps) ms pss ->
  Forall (Forall (shaped (g_gho g))) pss ->
  exists g', accept_all r k ms g = Some g' /\ g_own g' = g_own g /\ g_send g' = g_send g /\ g_sizes g' = g_sizes g ++ map (@length part) pss /\
    fits (g_gho g') /\ same_layout (g_gho g) (g_gho g') /\ stored (g_gho g') = stored (g_gho g) ++ concat pss /\
    st_number (g_gho g') = (st_number (g_gho g) + 2 * Z.of_nat (length (concat pss)))%Z /\ g_at g' = g_at g.
Proof.
  intros Hr. induction ms as [|[n m] ms IH]; intros pss g -> Hf C Hs; inversion C as [|? ps ? pss' C1 C2]; subst; cbn [accept_all concat map].
  - exists g. rewrite !app_nil_r. cbn. repeat split; auto. lia.
  - inversion Hs as [|? ? Hs1 Hs2]; subst. cbn [snd] in C1. destruct C1 as [Cn Cb].
    assert (H1 : exists s1, recv_new_particle_data (data_width (g_gho g)) m (g_gho g) = Some s1 /\ fits s1 /\ same_layout (g_gho g) s1 /\
      stored s1 = stored (g_gho g) ++ ps /\ st_number s1 = (st_number (g_gho g) + Z.of_nat (length ps))%Z).
    { unfold recv_new_particle_data. destruct (Nat.ltb_spec 0 (fst m)) as [H0|H0].
      - destruct (unpack_loop_spec ps 0 (snd m) (g_gho g) Hf Hs1) as (s1 & E & F & Z & N & M & R & X & D & L & Pn & K).
        { intros i p Hp. now apply Cb. }
        exists s1. unfold unpack_buffer. rewrite Cn. split; [exact E|]. split; [exact F|]. split; [exact L|]. split; [|exact N].
        unfold fits, st_cap in *. unfold stored. apply nth_error_ext. intros i. destruct (Nat.lt_ge_cases i (st_size (g_gho g))) as [Hi|Hi].
        + rewrite nth_error_firstn_lt by lia. rewrite nth_error_app1 by (rewrite firstn_length; lia). rewrite nth_error_firstn_lt by lia. now apply K.
        + rewrite nth_error_app2 by (rewrite firstn_length; lia). rewrite firstn_length, Nat.min_l by lia.
          destruct (nth_error ps (i - st_size (g_gho g))) as [p|] eqn:Ep.
          * assert ((i - st_size (g_gho g) < length ps)%nat) by (apply nth_error_Some; congruence).
            rewrite nth_error_firstn_lt by lia. rewrite <- (Pn _ _ Ep). f_equal. lia.
          * apply nth_error_None in Ep. apply nth_error_None. rewrite firstn_length. lia.
      - destruct ps as [|p ps]; [|cbn in Cn; lia]. exists (g_gho g). rewrite app_nil_r. cbn [length].
        split; [reflexivity|]. split; [exact Hf|]. split; [apply same_layout_refl|]. split; [reflexivity|lia]. }
    destruct H1 as (s1 & E1 & F1 & L1 & P1 & N1).
    rewrite Hr. unfold create_accept at 1. rewrite E1.
    set (g1 := mkG (g_own g) (set_number (st_number s1 + Z.of_nat (fst m)) s1) (g_send g) (g_sizes g ++ [fst m]) (g_at g)).
    assert (L1' : same_layout (g_gho g) (g_gho g1)) by (exact L1).
    rewrite (width_layout _ _ L1') in *.
    destruct (IH pss' g1 eq_refl F1 C2) as (g' & A1 & A2 & A3 & A4 & A5 & A6 & A7 & A8 & A9).
    { eapply Forall_impl; [|exact Hs2]. intros l Hl. eapply Forall_impl; [|exact Hl]. intros q. now apply shaped_layout. }
    exists g'. split; [exact A1|]. split; [exact A2|]. split; [exact A3|]. split; [rewrite A4; unfold g1; cbn [g_sizes]; rewrite Cn, <- app_assoc; reflexivity|].
    split; [exact A5|]. split; [eapply same_layout_trans; eauto|].
    split; [rewrite A7; replace (stored (g_gho g1)) with (stored s1) by reflexivity; rewrite P1, <- app_assoc; reflexivity|].
    split; [|exact A9]. rewrite A8. unfold g1. cbn [g_gho st_number set_number]. rewrite N1, app_length, Cn. lia.
Qed.

Section CREATE.
Variables (box : box) (P : nat) (t : kdtree) (dw : nat) (cut : part -> Q) (bufs : nat -> nat -> list word) (gs : list gproc).
Hypothesis HP : (2 <= P)%nat.
Hypothesis HB : nonempty (bounds_of box).
Hypothesis Ht : t = topology_tree P (bounds_of box).
Hypothesis HL : length gs = P.
Hypothesis Hdim : (length box <= 4)%nat.
Hypothesis HI : forall k g, nth_error gs k = Some g -> (st_size (g_own g) <= st_cap (g_own g))%nat /\ st_dims (g_own g) = length box /\
  data_width (g_own g) = dw /\ Forall (shaped (g_own g)) (stored (g_own g)) /\ fits (g_gho g).
Hypothesis HLay : forall k j g h, nth_error gs k = Some g -> nth_error gs j = Some h -> same_layout (g_own g) (g_gho h).

(* The entries of n that are sent to k. *)
Definition nearto (n k : nat) (p : part) : bool :=
  match index_of k (neighbors box n t) with Some i => near box (neighbors box n t) cut i p | None => false end.
Definition gsent (n k : nat) : list part :=
  match nth_error gs n, process_bounds k t with
  | Some g, Some kb => map (rel box (center kb)) (filter (nearto n k) (stored (g_own g)))
  | _, _ => [] end.

Lemma leaf_len k kb : In (k, kb) (leaves t) -> length kb = length box.
Proof.
  intros H. destruct (tree_ok box P t HP HB Ht) as (G & _). destruct (G _ _ H) as (_ & _ & L & _). rewrite L. unfold bounds_of. apply map_length.
Qed.

Lemma create_send k g : nth_error gs k = Some g -> exists ms, create_local box t dw cut (bufs k) k g =
    Some (combine (map fst (neighbors box k t)) ms,
          mkG (g_own g) (set_number 0 (g_gho g)) (map (fun i => ghost_ids box (neighbors box k t) cut i (g_own g)) (seq 0 (length (neighbors box k t)))) [] 0) /\
    Forall2 (fun m r => carries dw m (gsent k r)) ms (map fst (neighbors box k t)).
Proof.
  intros Hk. destruct (HI k g Hk) as (Hc & Hd & Hw & Hs & _). unfold create_local. destruct (Nat.ltb_spec 4 (length box)); [lia|].
  set (nbs := neighbors box k t). set (lists := map _ (seq 0 (length nbs))).
  pose proof (neighbors_NoDup box k t (ranks_nodup box P t HP HB Ht)) as Hnd. fold nbs in Hnd.
  assert (Hin : forall r nb, In (r, nb) nbs -> process_bounds r t = Some nb /\ length nb = length box).
  { intros r nb Hin. apply neighbors_in in Hin as (_ & _ & Hin & _). split; [apply process_bounds_leaf; [apply (ranks_nodup box P t HP HB Ht)|exact Hin]|].
    eapply leaf_len; eauto. }
  destruct (sequence_map (fun inb => send_relative box dw (snd (snd inb)) (nth (fst inb) lists []) (bufs k (fst inb)) (g_own g))
     (fun inb m => carries dw m (gsent k (fst (snd inb)))) (combine (seq 0 (length nbs)) nbs)) as (ms & E & F).
  { intros [i [r nb]] Hi. cbn [fst snd]. apply in_combine_seq in Hi as [_ Hi]. rewrite Nat.sub_0_r in Hi.
    destruct (Hin r nb (nth_error_In _ _ Hi)) as [Hpb Hnb].
    assert (Hi' : (i < length nbs)%nat) by (apply nth_error_Some; congruence).
    assert (El : nth i lists [] = ghost_ids box nbs cut i (g_own g)).
    { apply nth_error_nth. unfold lists. rewrite nth_error_map. rewrite (nth_error_nth' (seq 0 (length nbs)) 0%nat) by (now rewrite seq_length).
      rewrite seq_nth by exact Hi'. reflexivity. }
    rewrite El. unfold gsent. rewrite Hk, Hpb.
    assert (Hidx : index_of r nbs = Some i). { apply index_of_nth; [exact Hnd|]. rewrite nth_error_map, Hi. reflexivity. }
    assert (Hnt : filter (nearto k r) (stored (g_own g)) = filter (near box nbs cut i) (stored (g_own g))).
    { apply filter_ext. intros p. unfold nearto. fold nbs. now rewrite Hidx. }
    rewrite Hnt, <- Hw. apply send_relative_spec; try congruence; try lia.
    - unfold ghost_ids. apply (records_filter (near box nbs cut i) (g_own g) Hc).
    - apply Forall_forall. intros p Hp. apply filter_In in Hp as [Hp _]. rewrite Forall_forall in Hs. auto. }
  exists ms. rewrite E. split; [reflexivity|]. clear - F.
  assert (G : forall l off ms, Forall2 (fun (inb : nat * (nat * bounds)) m => carries dw m (gsent k (fst (snd inb)))) (combine (seq off (length l)) l) ms ->
     Forall2 (fun m r => carries dw m (gsent k r)) ms (map fst l)).
  { induction l as [|[r nb] l IH]; intros off ms' H; cbn in H; inversion H; subst; cbn; constructor; auto. now apply (IH (S off)). }
  now apply (G nbs 0%nat).
Qed.

(* What every processor holds afterwards. *)
Lemma create_all_spec : exists gs', round_all (create_round box t dw cut bufs) gs = Some gs' /\ length gs' = P /\
  forall k g, nth_error gs k = Some g -> exists g', nth_error gs' k = Some g' /\ g_own g' = g_own g /\
    g_send g' = map (fun i => ghost_ids box (neighbors box k t) cut i (g_own g)) (seq 0 (length (neighbors box k t))) /\
    g_sizes g' = map (fun n => length (gsent n k)) (map fst (neighbors box k t)) /\
    fits (g_gho g') /\ same_layout (g_gho g) (g_gho g') /\
    stored (g_gho g') = stored (g_gho g) ++ flat_map (fun n => gsent n k) (map fst (neighbors box k t)) /\
    st_number (g_gho g') = (2 * Z.of_nat (length (flat_map (fun n => gsent n k) (map fst (neighbors box k t)))))%Z.
Proof.
  unfold round_all. cbn [r_local create_round].
  destruct (sequence_map (fun ks => create_local box t dw cut (bufs (fst ks)) (fst ks) (snd ks))
    (fun ks out => exists ms, out = (combine (map fst (neighbors box (fst ks) t)) ms,
        mkG (g_own (snd ks)) (set_number 0 (g_gho (snd ks))) (map (fun i => ghost_ids box (neighbors box (fst ks) t) cut i (g_own (snd ks))) (seq 0 (length (neighbors box (fst ks) t)))) [] 0) /\
      Forall2 (fun m r => carries dw m (gsent (fst ks) r)) ms (map fst (neighbors box (fst ks) t)))
    (combine (seq 0 (length gs)) gs)) as (outs & E & F).
  { intros [k g] Hin. cbn [fst snd]. apply in_combine_seq in Hin as [_ Hk]. rewrite Nat.sub_0_r in Hk.
    destruct (create_send k g Hk) as (ms & E & C). rewrite E. eauto. }
  rewrite E. pose proof (Forall2_len _ _ _ F) as Lo. rewrite combine_length, seq_length, Nat.min_id in Lo.
  assert (S : forall n g, nth_error gs n = Some g -> exists ms, nth_error outs n = Some (combine (map fst (neighbors box n t)) ms,
        mkG (g_own g) (set_number 0 (g_gho g)) (map (fun i => ghost_ids box (neighbors box n t) cut i (g_own g)) (seq 0 (length (neighbors box n t)))) [] 0) /\
      Forall2 (fun m r => carries dw m (gsent n r)) ms (map fst (neighbors box n t))).
  { intros n g Hn. destruct (Forall2_nth _ _ _ F n (n, g)) as (o & Eo & ms & -> & C). { rewrite combine_seq_nth, Hn. reflexivity. }
    exists ms. auto. }
  destruct (sequence_map (fun ko => match delivered (create_round box t dw cut bufs) (fst ko) outs with
      | Some ms => accept_all (create_round box t dw cut bufs) (fst ko) ms (snd (snd ko)) | None => None end)
    (fun ko g' => forall g, nth_error gs (fst ko) = Some g -> g_own g' = g_own g /\
      g_send g' = map (fun i => ghost_ids box (neighbors box (fst ko) t) cut i (g_own g)) (seq 0 (length (neighbors box (fst ko) t))) /\
      g_sizes g' = map (fun n => length (gsent n (fst ko))) (map fst (neighbors box (fst ko) t)) /\
      fits (g_gho g') /\ same_layout (g_gho g) (g_gho g') /\
      stored (g_gho g') = stored (g_gho g) ++ flat_map (fun n => gsent n (fst ko)) (map fst (neighbors box (fst ko) t)) /\
      st_number (g_gho g') = (2 * Z.of_nat (length (flat_map (fun n => gsent n (fst ko)) (map fst (neighbors box (fst ko) t)))))%Z)
    (combine (seq 0 (length outs)) outs)) as (gs' & E' & F').
  { intros [k out] Hin. cbn [fst snd]. apply in_combine_seq in Hin as [_ Hk]. rewrite Nat.sub_0_r in Hk.
    assert (Hlt : (k < P)%nat). { rewrite <- HL, Lo. apply nth_error_Some. congruence. }
    destruct (nth_error gs k) as [g|] eqn:Eg. 2:{ apply nth_error_None in Eg. lia. }
    destruct (S k g Eg) as (ms0 & Eo & _). rewrite Hk in Eo. injection Eo as ->. cbn [fst snd].
    unfold delivered. cbn [r_nbs create_round].
    destruct (sequence_map (fun n => match nth_error outs n with Some o => option_map (pair n) (message_to k (fst o)) | None => None end)
      (fun n nm => carries dw (snd nm) (gsent n k)) (map fst (neighbors box k t))) as (ims & Ei & Fi).
    { intros n Hn. pose proof (neighbor_lt box P t HP HB Ht k n Hn) as Hnlt. destruct (nth_error gs n) as [gn|] eqn:Egn. 2:{ apply nth_error_None in Egn. lia. }
      destruct (S n gn Egn) as (msn & Eon & Cn). rewrite Eon. cbn [fst].
      pose proof (neighbor_sym box P t HP HB Ht k n Hn) as Hkn. apply In_nth_error in Hkn as [i Hi].
      assert (Hm : exists m, nth_error msn i = Some m /\ carries dw m (gsent n k)).
      { clear - Cn Hi. revert i Hi. induction Cn as [|m r msn rs C1 C2 IH]; intros [|i] Hi; try discriminate; cbn in *.
        - injection Hi as <-. eauto.
        - now apply IH. }
      destruct Hm as (m & Em & Cm). rewrite (message_to_spec _ msn k i m); auto. 2:{ apply neighbors_NoDup. apply (ranks_nodup box P t HP HB Ht). }
      exists (n, m). auto. }
    rewrite Ei.
    destruct (HI k g Eg) as (_ & Hd & Hw & _ & Hf).
    destruct (create_accept_all_spec (create_round box t dw cut bufs) k dw ltac:(reflexivity) ims (map (fun n => gsent n k) (map fst (neighbors box k t)))
       (mkG (g_own g) (set_number 0 (g_gho g)) (map (fun i => ghost_ids box (neighbors box k t) cut i (g_own g)) (seq 0 (length (neighbors box k t)))) [] 0))
       as (g' & A1 & A2 & A3 & A4 & A5 & A6 & A7 & A8 & A9).
    { cbn [g_gho]. rewrite <- Hw. apply width_layout. exact (HLay k k g g Eg Eg). }
    { exact Hf. }
    { clear - Fi. induction Fi; cbn; constructor; auto. }
    { apply Forall_forall. intros l Hl. apply in_map_iff in Hl as (n & <- & Hn). apply Forall_forall. intros p Hp. cbn [g_gho].
      unfold gsent in Hp. destruct (nth_error gs n) as [gn|] eqn:Egn; [|destruct Hp]. destruct (process_bounds k t) as [kb|] eqn:Ekb; [|destruct Hp].
      apply in_map_iff in Hp as (q & <- & Hq). apply filter_In in Hq as [Hq _].
      destruct (HI n gn Egn) as (_ & Hdn & _ & Hsn & _). rewrite Forall_forall in Hsn.
      apply (shaped_layout (g_own gn)); [exact (HLay n k gn g Egn Eg)|]. apply rel_shaped; [congruence| |auto].
      unfold center. rewrite map_length. apply process_bounds_inv in Ekb. rewrite (leaf_len k kb Ekb). congruence. }
    exists g'. split; [exact A1|]. intros g0 Eg0. assert (g0 = g) by congruence. subst g0. cbn [g_own g_gho g_send g_sizes] in *.
    split; [exact A2|]. split; [exact A3|]. split; [rewrite A4; cbn [app]; rewrite !map_map; reflexivity|]. split; [exact A5|].
    split; [exact A6|]. rewrite <- flat_map_concat_map in A7, A8. split; [exact A7|]. exact A8. }
  exists gs'. split; [exact E'|]. pose proof (Forall2_len _ _ _ F') as L'. rewrite combine_length, seq_length, Nat.min_id in L'. split; [lia|].
  intros k g Hk. destruct (nth_error outs k) as [o|] eqn:Eo. 2:{ apply nth_error_None in Eo. assert (k < length gs)%nat by (apply nth_error_Some; congruence). lia. }
  destruct (Forall2_nth _ _ _ F' k (k, o)) as (g' & Eg' & R). { rewrite combine_seq_nth, Eo. reflexivity. }
  exists g'. split; [exact Eg'|]. now apply (R g).
Qed.
End CREATE.
