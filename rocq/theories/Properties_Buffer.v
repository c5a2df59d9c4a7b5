(* C07, C08, C10: migration buffers, ghost buffers, registration of data entries. *)
From Coq Require Import String.
From Verif Require Import Lib Model_Geometry Model_Store Model_Buffer Spec_Store Spec_Buffer Proofs_Geometry Proofs_Store1 Proofs_Store2 Proofs_Store3
  Proofs_Store4 Proofs_Store5 Proofs_Store6 Proofs_Buffer Proofs_Ghost Proofs_Registry Properties_Store.
From Coq Require Import Permutation ZifyBool ZifyNat.
Local Open Scope list_scope.
Local Open Scope Z_scope.

Lemma Forall2_length {A B} (R : A -> B -> Prop) l l' : Forall2 R l l' -> List.length l = List.length l'.
Proof. induction 1; cbn; auto. Qed.

(* ---------- C07 ---------- *)

(* Packing the particles with local ids ids and unpacking them on a processor with the same registered entries
   reproduces every record in order, after the particles already there, which are unchanged. With remove, exactly the
   packed particles are gone from the sender: the entries at other ids are unchanged and none of the packed ones is
   alive. What is missing for the full property: the width used on both sides has to be the one of the entries that are
   registered now, and with remove the ids must not repeat (refuted below otherwise). *)
Theorem C07_migration_round_trip_partial (d nev nes nei d' nev' nes' nei' : nat) (s r : store) (ids : list nat) (ps : list part)
    (buf : list word) (remove : bool) :
  reach (empty_store d nev nes nei) s -> reach (empty_store d' nev' nes' nei') r -> same_layout s r ->
  records s ids ps -> Forall (shaped s) ps -> (remove = true -> NoDup ids) ->
  exists buf' s' r',
    pack_buffer (data_width s) ids buf remove s = Some (buf', s') /\
    unpack_buffer (data_width r) (List.length ids) buf' r = Some r' /\
    (* the receiver *)
    st_size r' = (st_size r + List.length ids)%nat /\ st_number r' = st_number r + Z.of_nat (List.length ids) /\
    (forall i p, nth_error ps i = Some p -> at_ r' (st_size r + i) p) /\
    (forall k p, (k < st_size r)%nat -> (at_ r' k p <-> at_ r k p)) /\
    (Forall alive ps -> particles r' = particles r ++ ps) /\
    (* the sender *)
    st_size s' = st_size s /\
    (remove = false -> s' = s) /\
    (remove = true -> particles s' = others (map Z.of_nat ids) s /\
      (forall k p, ~ In k ids -> (at_ s' k p <-> at_ s k p)) /\ (forall k p, In k ids -> at_ s' k p -> ~ alive p)).
Proof.
  intros Hs Hr HL Hrec Hsh Hnd.
  pose proof (reach_inv _ _ (proj1 (empty_inv d nev nes nei)) Hs) as I.
  pose proof (reach_inv _ _ (proj1 (empty_inv d' nev' nes' nei')) Hr) as J.
  assert (Hlen : List.length ids = List.length ps) by (eapply Forall2_length; exact Hrec).
  destruct (pack_loop_spec (data_width s) ids ps 0 remove (enlarge (List.length ids * data_width s) buf) s eq_refl I Hrec Hsh Hnd)
    as (buf' & s' & E1 & L1 & B1 & _ & R1). { cbn [Nat.add]. apply enlarge_len. }
  destruct (unpack_loop_spec ps 0 buf' r (inv_size _ J)) as (r' & E2 & F2 & S2 & N2 & M2 & Rm2 & X2 & D2 & L2 & P2 & K2).
  { eapply Forall_impl; [|exact Hsh]. intros p. now apply shaped_layout. }
  { intros i p Hp. rewrite <- (width_layout s r HL). now apply B1. }
  assert (Hids : forall id, In id (map Z.of_nat ids) -> 0 <= id < Z.of_nat (st_size s)).
  { clear - Hrec. intros id Hin. apply in_map_iff in Hin as (k & <- & Hin).
    induction Hrec as [|k' p ks qs [H1 H2] H IH]; [destruct Hin|]. destruct Hin as [<-|Hin]; [lia|auto]. }
  exists buf', s', r'. split; [exact E1|]. split; [unfold unpack_buffer; now rewrite Hlen|].
  split; [lia|]. split; [lia|]. split.
  { intros i p Hp. split; [|now apply P2]. assert (i < List.length ps)%nat by (apply nth_error_Some; congruence). lia. }
  split.
  { intros k p Hk. unfold at_. rewrite K2 by exact Hk. split; intros [H1 H2]; split; auto; lia. }
  split.
  { intros Ha. apply (unpack_inv ps r r' J Ha S2 F2 N2 Rm2); auto. }
  destruct remove.
  - destruct (marks_spec (map Z.of_nat ids) s I Hids) as (s1 & Er & I1 & S1 & M1). rewrite R1 in Er. injection Er as <-.
    split; [exact S1|]. split; [discriminate|]. intros _. split; [now apply others_marked|].
    assert (Hex : forall k, existsb (Z.eqb (Z.of_nat k)) (map Z.of_nat ids) = true <-> In k ids).
    { intros k. rewrite existsb_exists. split.
      - intros (z & Hz & Ez). apply in_map_iff in Hz as (m & <- & Hm). apply Z.eqb_eq in Ez. now replace k with m by lia.
      - intros Hk. exists (Z.of_nat k). split; [now apply in_map|apply Z.eqb_refl]. }
    split.
    + intros k p Hk. unfold at_. rewrite S1. split; intros [H1 H2]; (split; [exact H1|]); rewrite M1 in * by exact H1;
      assert (He : existsb (Z.eqb (Z.of_nat k)) (map Z.of_nat ids) = false) by (destruct (existsb _ _) eqn:He; [apply Hex in He; tauto|reflexivity]);
      rewrite He in *; destruct (nth_error (st_mem s) k) as [q|]; cbn [option_map] in *; try discriminate; rewrite andb_false_r in *; auto.
    + intros k p Hk [H1 H2]. rewrite S1 in H1. rewrite M1 in H2 by exact H1. apply Hex in Hk. rewrite Hk in H2.
      destruct (nth_error (st_mem s) k) as [q|]; [|discriminate]. cbn [option_map] in H2. rewrite andb_true_r in H2.
      destruct (aliveb q) eqn:Ea; injection H2 as <-; [unfold alive, marked; cbn; lia|]. intros Ha. apply aliveb_spec in Ha. congruence.
  - subst s'. split; [reflexivity|]. split; [reflexivity|]. discriminate.
Qed.
Print Assumptions C07_migration_round_trip_partial.

(* Three of five particles of a store with one extra entry of each kind, to a store with two particles. *)
Definition ex_lay : store := empty_store 2 1 1 1.
Definition ex_send : list op := map (fun i => ex_add (Z.of_nat i) (Z.of_nat (i * i))) (seq 0 5).
Definition ex_recv : list op := map (fun i => ex_add (Z.of_nat (20 + i)) 7) (seq 0 2).
Example C07_hypotheses_met : exists s r, run ex_send ex_lay = Some s /\ run ex_recv ex_lay = Some r /\
  reach ex_lay s /\ reach ex_lay r /\ same_layout s r /\ NoDup [3; 1; 4]%nat /\
  exists ps, records s [3; 1; 4]%nat ps /\ Forall (shaped s) ps /\ Forall alive ps /\ map p_gid ps = [6; 2; 8].
Proof.
  destruct (run ex_send ex_lay) as [s|] eqn:Es; [|vm_compute in Es; discriminate].
  destruct (run ex_recv ex_lay) as [r|] eqn:Er; [|vm_compute in Er; discriminate].
  exists s, r. split; [reflexivity|]. split; [reflexivity|].
  assert (Rs : reach ex_lay s).
  { apply (allowedb_reach ex_send ex_lay ex_lay s (reach_start ex_lay)). rewrite <- Es. vm_compute. reflexivity. }
  assert (Rr : reach ex_lay r).
  { apply (allowedb_reach ex_recv ex_lay ex_lay r (reach_start ex_lay)). rewrite <- Er. vm_compute. reflexivity. }
  split; [exact Rs|]. split; [exact Rr|]. vm_compute in Es. vm_compute in Er. injection Es as <-. injection Er as <-.
  split; [repeat split|]. split; [repeat constructor; cbn; lia|].
  eexists. split; [|split; [|split]].
  - unfold records. repeat (apply Forall2_cons; [split; [cbn; lia|reflexivity]|]). apply Forall2_nil.
  - repeat constructor; cbn; auto; intros v [<-|[]]; reflexivity.
  - repeat constructor; unfold alive; cbn; lia.
  - reflexivity.
Qed.

(* If an entry is registered after the widths were computed (initialize and pre_integrate compute them), packing writes
   outside the buffer. *)
Theorem C07_stale_width_refuted :
  exists s, reach (empty_store 2 0 1 0) s /\ (exists p, records s [0%nat] [p] /\ shaped s p /\ alive p) /\
    pack_buffer (data_width (empty_store 2 0 0 0)) [0%nat] [] false s = None.
Proof.
  destruct (run [ex_add 1 2] (empty_store 2 0 1 0)) as [s|] eqn:Es; [|vm_compute in Es; discriminate].
  exists s. split.
  { apply (allowedb_reach [ex_add 1 2] _ _ s (reach_start _)). rewrite <- Es. reflexivity. }
  vm_compute in Es. injection Es as <-. split; [|reflexivity]. eexists. split; [|split].
  - unfold records. apply Forall2_cons; [split; [cbn; lia|reflexivity]|apply Forall2_nil].
  - repeat split; cbn; auto. intros v [].
  - unfold alive. cbn. lia.
Qed.
Print Assumptions C07_stale_width_refuted.

(* With remove and a repeated id, the second copy is not the particle: its type and position were overwritten. *)
Theorem C07_repeated_id_refuted :
  exists s buf' s' r' p q, reach (empty_store 2 0 0 0) s /\ at_ s 0 p /\
    pack_buffer (data_width s) [0; 0]%nat [] true s = Some (buf', s') /\
    unpack_buffer (data_width s) 2 buf' (empty_store 2 0 0 0) = Some r' /\
    at_ r' 1 q /\ p_type q <> p_type p /\ p_x q <> p_x p /\ st_number r' = 2 /\ List.length (particles r') = 1%nat.
Proof.
  destruct (run [ex_add 1 2] (empty_store 2 0 0 0)) as [s|] eqn:Es; [|vm_compute in Es; discriminate].
  destruct (pack_buffer (data_width s) [0; 0]%nat [] true s) as [[buf' s']|] eqn:Ep;
    [|vm_compute in Es; injection Es as <-; vm_compute in Ep; discriminate].
  destruct (unpack_buffer (data_width s) 2 buf' (empty_store 2 0 0 0)) as [r'|] eqn:Eu;
    [|vm_compute in Es; injection Es as <-; vm_compute in Ep; injection Ep as <- <-; vm_compute in Eu; discriminate].
  assert (R : reach (empty_store 2 0 0 0) s).
  { apply (allowedb_reach [ex_add 1 2] _ _ s (reach_start _)). rewrite <- Es. reflexivity. }
  vm_compute in Es. injection Es as <-. pose proof Ep as Ep'. pose proof Eu as Eu'. vm_compute in Ep'. injection Ep' as <- <-. vm_compute in Eu'. injection Eu' as <-.
  do 6 eexists. split; [exact R|]. split; [split; [cbn; lia|reflexivity]|]. split; [exact Ep|]. split; [exact Eu|].
  split; [split; [cbn; lia|reflexivity]|]. cbn. split; [discriminate|]. split; [discriminate|]. split; reflexivity.
Qed.
Print Assumptions C07_repeated_id_refuted.

(* C02 across a migration: the receiver's lookup does not know the particle it received. *)
Theorem C02_after_unpack_refuted :
  exists s buf' s' r' p, reach_ids (empty_store 2 0 0 0) s /\ at_ s 0 p /\ alive p /\
    pack_buffer (data_width s) [0%nat] [] true s = Some (buf', s') /\
    unpack_buffer (data_width s) 1 buf' (empty_store 2 0 0 0) = Some r' /\
    at_ r' 0 p /\ getLocalID (p_gid p) r' = -1 /\ ~ lookup_exact r'.
Proof.
  destruct (run [ex_add 1 2] (empty_store 2 0 0 0)) as [s|] eqn:Es; [|vm_compute in Es; discriminate].
  destruct (pack_buffer (data_width s) [0]%nat [] true s) as [[buf' s']|] eqn:Ep;
    [|vm_compute in Es; injection Es as <-; vm_compute in Ep; discriminate].
  destruct (unpack_buffer (data_width s) 1 buf' (empty_store 2 0 0 0)) as [r'|] eqn:Eu;
    [|vm_compute in Es; injection Es as <-; vm_compute in Ep; injection Ep as <- <-; vm_compute in Eu; discriminate].
  assert (R : reach_ids (empty_store 2 0 0 0) s).
  { apply (allowedb_reach_ids [ex_add 1 2] _ _ s (reachi_start _)); [repeat constructor|]. rewrite <- Es. reflexivity. }
  vm_compute in Es. injection Es as <-. pose proof Ep as Ep'. pose proof Eu as Eu'. vm_compute in Ep'. injection Ep' as <- <-. vm_compute in Eu'. injection Eu' as <-.
  do 5 eexists. split; [exact R|]. split; [split; [cbn; lia|reflexivity]|]. split; [unfold alive; cbn; lia|].
  split; [exact Ep|]. split; [exact Eu|]. split; [split; [cbn; lia|reflexivity]|]. split; [reflexivity|].
  intros H. destruct (H 0 0%nat) as (_ & [H1 _] & _). apply H1; [reflexivity|].
  eexists 0%nat, _. split; [split; [cbn; lia|reflexivity]|]. split; [unfold alive; cbn; lia|reflexivity].
Qed.
Print Assumptions C02_after_unpack_refuted.

(* ---------- C08 ---------- *)

(* Sending the ghost data of the particles ids to the ghosts start, start+1, ... of a processor whose centre is c. For
   each ghost in order: the position is the periodic image of the owned particle's position closest to c, the velocity
   and the entry "Om" are the particle's if they are to be sent, every other datum of the ghost and every other ghost is
   unchanged. Missing for the full property: at most four dimensions, and "Om" registered when it is to be sent. *)
Theorem C08_ghost_update_partial (b : box) (l : ghost_layout) (c : list Q) (s r : store) (ids : list nat) (start : nat)
    (ps gs : list part) (buf : list word) :
  List.length b = st_dims s -> List.length c = st_dims s -> (st_dims s <= 4)%nat -> same_layout s r ->
  (send_om l = true -> exists i, om_entry l = Some i /\ (i < 2 + st_nes s)%nat) ->
  records s ids ps -> Forall (shaped s) ps ->
  records r (seq start (List.length ids)) gs -> Forall (shaped r) gs ->
  (forall d a q, nth_error b d = Some a -> nth_error c d = Some q -> (lo a <= q <= hi a)%Q) ->
  (forall p d a q, In p ps -> nth_error b d = Some a -> nth_error (p_x p) d = Some (Some q) -> (lo a <= q <= hi a)%Q) ->
  exists buf' r',
    pack_ghost_buffer b l c ids buf s = Some buf' /\
    unpack_ghost_buffer l (List.length ids) start buf' r = Some r' /\
    st_size r' = st_size r /\ st_number r' = st_number r /\
    (forall i p g, nth_error ps i = Some p -> nth_error gs i = Some g ->
      exists g', at_ r' (start + i) g' /\
        List.length (p_x g') = st_dims r /\
        (forall d a cd xd, nth_error b d = Some a -> nth_error c d = Some cd -> nth_error (p_x p) d = Some xd ->
          exists y, nth_error (p_x g') d = Some y /\ image_component a xd y /\ closest_component a cd xd y) /\
        p_v g' = (if send_v l then p_v p else p_v g) /\
        (forall k, nth_error (scals g') k =
           if send_om l && match om_entry l with Some i => (k =? i)%nat | None => false end
           then nth_error (scals p) k else nth_error (scals g) k) /\
        p_f g' = p_f g /\ p_evecs g' = p_evecs g /\ p_type g' = p_type g /\ p_gid g' = p_gid g /\ p_eints g' = p_eints g) /\
    (forall k p, (k < start \/ start + List.length ids <= k)%nat -> (at_ r' k p <-> at_ r k p)).
Proof.
  intros Hb Hc Hd HL Hom Hrec Hsh Hrg Hshg Hcin Hxin.
  assert (Hlen : List.length ids = List.length ps) by (eapply Forall2_length; exact Hrec).
  assert (Hleng : List.length gs = List.length ps).
  { apply Forall2_length in Hrg. rewrite seq_length in Hrg. lia. }
  assert (HomS : forall p, shaped s p -> om_ok l p).
  { intros p (_ & _ & _ & _ & _ & H6 & _) Em. destruct (Hom Em) as (i & Ei & Hi). unfold get_om. rewrite Ei.
    apply nth_error_Some. unfold scals. cbn [List.length]. lia. }
  assert (HomG : forall g, In g gs -> om_ok l g).
  { intros g Hg. rewrite Forall_forall in Hshg. apply HomS. eapply shaped_layout; [|now apply Hshg].
    destruct HL as (L1 & L2 & L3 & L4). repeat split; congruence. }
  destruct HL as (L1 & L2 & L3 & L4).
  destruct (pack_ghost_loop_spec b l c s ids Hb Hc Hd ps 0 (enlarge (List.length ids * ghost_width l (st_dims s)) buf) Hrec)
    as (buf' & E1 & _ & B1 & _).
  { eapply Forall_impl; [|exact Hsh]. intros p Hp. pose proof Hp as (S1 & S2 & _). exact (conj S1 (conj S2 (HomS p Hp))). }
  { cbn [Nat.add]. apply enlarge_len. }
  rewrite Forall_forall in Hsh.
  destruct (unpack_ghost_loop_spec b l c (st_dims s) buf' Hb Hc ps gs 0 start (st_mem r)) as (m' & E2 & L & R & K); auto.
  { intros p Hp. specialize (Hsh p Hp). pose proof Hsh as (S1 & S2 & _). exact (conj S1 (conj S2 (HomS p Hsh))). }
  { intros i g Hg. revert i g Hg. clear - Hrg. revert start Hrg. generalize (List.length ids) as n. induction gs as [|g0 gs IH]; intros n start Hrg i g Hg; [destruct i; discriminate|].
    destruct n as [|n]; [inversion Hrg|]. cbn [seq] in Hrg. inversion Hrg as [|? ? ? ? [H1 H2] H3]; subst. destruct i as [|i]; cbn in Hg.
    - injection Hg as <-. now rewrite Nat.add_0_r.
    - replace (start + S i)%nat with (S start + i)%nat by lia. now apply (IH n (S start) H3). }
  exists buf', (set_mem m' r). split; [exact E1|]. split.
  { unfold unpack_ghost_buffer. rewrite Hlen, <- L1, E2. reflexivity. }
  assert (Hlast : (List.length ids = 0 \/ start + List.length ids <= st_size r)%nat).
  { destruct ids as [|id0 ids0]; [now left|]. right.
    assert (Hin : In (start + List.length ids0)%nat (seq start (List.length (id0 :: ids0)))) by (apply in_seq; cbn; lia).
    revert Hrg Hin. cbn [List.length]. generalize (seq start (S (List.length ids0))) as ks. generalize gs as gs1.
    intros gs1 ks H Hin. clear - H Hin. induction H as [|k g ks' gs' [H1 _] H IH]; [destruct Hin|]. destruct Hin as [->|Hin]; [lia|auto]. }
  split; [reflexivity|]. split; [reflexivity|]. split.
  - intros i p g Hp Hg. destruct (R i p g Hp Hg) as (g' & Eg' & Rx & Rv & Rs & Rf & Re & Ri).
    assert (Hin : In p ps) by (eapply nth_error_In; eauto).
    exists g'. split.
    { split; [|exact Eg']. cbn. assert (i < List.length ps)%nat by (apply nth_error_Some; congruence). lia. }
    pose proof (Hsh p Hin) as (S1 & _).
    split; [rewrite Rx, relative_length; congruence|]. split.
    { intros d a cd xd Ha Hcd Hx. rewrite Rx. apply (relative_image b (p_x p) c d a xd cd Ha Hx Hcd (Hcin d a cd Ha Hcd)).
      intros q ->. now apply (Hxin p d a q Hin). }
    split; [exact Rv|]. split.
    { intros k. rewrite Rs. destruct (send_om l) eqn:Em; [|reflexivity]. destruct (Hom eq_refl) as (i0 & Ei & Hi). rewrite Ei.
      cbn [andb]. rewrite set_nth_nth.
      2:{ rewrite Forall_forall in Hshg. destruct (Hshg g) as (_ & _ & _ & _ & _ & G6 & _); [eapply nth_error_In; eauto|]. unfold scals. cbn [List.length]. lia. }
      destruct (Nat.eqb_spec k i0) as [->|]; [|reflexivity]. unfold om_of, get_om. rewrite Ei.
      assert (HH : (i0 < List.length (scals p))%nat). { destruct (Hsh p Hin) as (_ & _ & _ & _ & _ & G6 & _). unfold scals. cbn [List.length]. lia. }
      destruct (nth_error (scals p) i0) eqn:En; [reflexivity|]. apply nth_error_None in En. lia. }
    split; [exact Rf|]. split; [exact Re|]. unfold ints in Ri. injection Ri as -> -> ->. auto.
  - intros k p Hk. unfold at_. cbn. rewrite K by lia. reflexivity.
Qed.
Print Assumptions C08_ghost_update_partial.

(* A particle near the upper edge of a periodic box, seen from a processor at the lower edge. *)
Example C08_hypotheses_met :
  let b := [mkAxis 0 10 WRAP; mkAxis 0 4 OPEN] in
  let l := mkGL true true (Some 2%nat) in
  let c := [1#1; 2#1]%Q in
  exists s r p g, run [ex_add 9 3] (empty_store 2 0 1 0) = Some s /\ run [ex_add 5 5; ex_add 6 6] (empty_store 2 0 1 0) = Some r /\
    same_layout s r /\ records s [0%nat] [p] /\ Forall (shaped s) [p] /\ records r (seq 1 1) [g] /\ Forall (shaped r) [g] /\
    (forall d a q, nth_error b d = Some a -> nth_error c d = Some q -> (lo a <= q <= hi a)%Q) /\
    (forall p' d a q, In p' [p] -> nth_error b d = Some a -> nth_error (p_x p') d = Some (Some q) -> (lo a <= q <= hi a)%Q) /\
    exists buf' r', pack_ghost_buffer b l c [0%nat] [] s = Some buf' /\ unpack_ghost_buffer l 1 1 buf' r = Some r' /\
      exists g', at_ r' 1 g' /\ exists x y, p_x g' = [Some x; Some y] /\ (x == -1)%Q /\ (y == 3)%Q.
Proof.
  cbn zeta.
  destruct (run [ex_add 9 3] (empty_store 2 0 1 0)) as [s|] eqn:Es; [|vm_compute in Es; discriminate].
  destruct (run [ex_add 5 5; ex_add 6 6] (empty_store 2 0 1 0)) as [r|] eqn:Er; [|vm_compute in Er; discriminate].
  vm_compute in Es. injection Es as <-. vm_compute in Er. injection Er as <-.
  do 4 eexists. split; [reflexivity|]. split; [reflexivity|]. split; [repeat split|].
  split; [apply Forall2_cons; [split; [cbn; lia|reflexivity]|apply Forall2_nil]|].
  split; [apply Forall_cons; [|apply Forall_nil]; repeat split; cbn; auto; intros v []|].
  split; [apply Forall2_cons; [split; [cbn; lia|reflexivity]|apply Forall2_nil]|].
  split; [apply Forall_cons; [|apply Forall_nil]; repeat split; cbn; auto; intros v []|].
  split. { intros [|[|d]] a q Ha Hq; try (cbn in Ha; destruct d; discriminate); injection Ha as <-; injection Hq as <-; cbn; unfold Qle; cbn; lia. }
  split. { intros p' [|[|d]] a q [<-|[]] Ha Hq; try (cbn in Ha; destruct d; discriminate); injection Ha as <-; injection Hq as <-; cbn; unfold Qle; cbn; lia. }
  do 2 eexists. split; [vm_compute; reflexivity|]. split; [vm_compute; reflexivity|].
  eexists. split; [split; [cbn; lia|reflexivity]|]. do 2 eexists. split; [reflexivity|]. split; reflexivity.
Qed.

(* In five dimensions the four-component work array is overrun. *)
Theorem C08_five_dimensions_refuted :
  exists b c s p, List.length b = 5%nat /\ List.length c = 5%nat /\ records s [0%nat] [p] /\ shaped s p /\ alive p /\
    pack_ghost_buffer b (mkGL false false None) c [0%nat] [] s = None.
Proof.
  exists (repeat (mkAxis 0 1 WRAP) 5), (repeat 0%Q 5).
  destruct (run [OpAdd (repeat (ex_num 0) 5) (repeat (ex_num 0) 5) (ex_num 1) (ex_num 1) 0] (empty_store 5 0 0 0)) as [s|] eqn:Es; [|vm_compute in Es; discriminate].
  exists s. vm_compute in Es. injection Es as <-. eexists. split; [reflexivity|]. split; [reflexivity|].
  split; [apply Forall2_cons; [split; [cbn; lia|reflexivity]|apply Forall2_nil]|].
  split; [repeat split; cbn; auto; intros v []|]. split; [unfold alive; cbn; lia|]. reflexivity.
Qed.
Print Assumptions C08_five_dimensions_refuted.

(* Angular velocities are to be sent but "Om" is not registered: a null accessor is dereferenced. *)
Theorem C08_omega_not_registered_refuted :
  exists b c s p, List.length b = 1%nat /\ List.length c = 1%nat /\ records s [0%nat] [p] /\ shaped s p /\ alive p /\
    ScalarData_named "Om" init_scalars = None /\
    pack_ghost_buffer b (mkGL false true (ScalarData_named "Om" init_scalars)) c [0%nat] [] s = None.
Proof.
  exists [mkAxis 0 1 WRAP], [0%Q].
  destruct (run [OpAdd [ex_num 0] [ex_num 0] (ex_num 1) (ex_num 1) 0] (empty_store 1 0 0 0)) as [s|] eqn:Es; [|vm_compute in Es; discriminate].
  exists s. vm_compute in Es. injection Es as <-. eexists. split; [reflexivity|]. split; [reflexivity|].
  split; [apply Forall2_cons; [split; [cbn; lia|reflexivity]|apply Forall2_nil]|].
  split; [repeat split; cbn; auto; intros v []|]. split; [unfold alive; cbn; lia|]. split; reflexivity.
Qed.
Print Assumptions C08_omega_not_registered_refuted.

(* ---------- C10 ---------- *)

(* Requests in any order from one of the three tables of a new SimData: the same name always gets the same handle,
   different names different handles; a query returns that handle, the handles 0, 1, .. of the built-in entries, or -1;
   every handle is below the number of entries. *)
Theorem C10_requests_partial (builtin names : list string) (r0 : registry) (hs : list nat) (r : registry) :
  (builtin, r0) = (["X"; "V"; "F"]%string, init_vectors) \/
  (builtin, r0) = (["Sg"; "Im"]%string, init_scalars) \/
  (builtin, r0) = (["Type"; "ID"]%string, init_integers) ->
  requests names r0 = (hs, r) ->
  List.length hs = List.length names /\
  (forall i j n m h k, nth_error names i = Some n -> nth_error names j = Some m -> nth_error hs i = Some h -> nth_error hs j = Some k ->
     (n = m <-> h = k)) /\
  (forall i n h, nth_error names i = Some n -> nth_error hs i = Some h -> get_data n r = Z.of_nat h /\ (h < r_entries r)%nat) /\
  (forall k n, nth_error builtin k = Some n -> get_data n r = Z.of_nat k) /\
  (forall n, ~ In n builtin -> ~ In n names -> get_data n r = -1).
Proof.
  intros H0 E.
  assert (W0 : wfreg r0 /\ (forall k n, nth_error builtin k = Some n -> r_find n r0 = Some k) /\
    (forall n, ~ In n builtin -> r_find n r0 = None)).
  { assert (Hf : forall r1 n, ~ In n (map fst (r_map r1)) -> r_find n r1 = None).
    { intros r1 n Hn. destruct (r_find n r1) eqn:Ef; [|reflexivity]. apply find_in in Ef. exfalso. apply Hn.
      change n with (fst (n, n0)). now apply in_map. }
    destruct H0 as [H0|[H0|H0]]; injection H0 as -> ->; (split; [constructor|split]).
    1,6,11: cbn; repeat constructor; cbn; intuition discriminate.
    1,5,9: cbn; repeat constructor; cbn; intuition discriminate.
    1,4,7: cbn; intros n a H; repeat (destruct H as [H|H]; [injection H as <- <-; lia|]); destruct H.
    1,3,5: intros [|[|[|k]]] n Hn; cbn in Hn; try discriminate; try (destruct k; discriminate); injection Hn as <-; reflexivity.
    all: intros n Hn; apply Hf; cbn; cbn in Hn; tauto. }
  destruct W0 as (W0 & B1 & B2).
  pose proof (requests_spec names r0 W0) as S. rewrite E in S. destruct S as (W & L & _ & S & N).
  assert (K : forall n a, r_find n r0 = Some a -> r_find n r = Some a).
  { intros n a Ha. pose proof (requests_keep names r0 n a W0 Ha) as H. now rewrite E in H. }
  split; [exact L|]. split; [|split; [|split]].
  - intros i j n m h k Hi Hj Hh Hk. destruct (S i n Hi) as (h' & Hh' & Fh). destruct (S j m Hj) as (k' & Hk' & Fk).
    rewrite Hh in Hh'. injection Hh' as <-. rewrite Hk in Hk'. injection Hk' as <-. split; [congruence|]. intros <-.
    apply find_in in Fh. apply find_in in Fk. clear - W Fh Fk. destruct W as [_ W _].
    induction (r_map r) as [|[a b] l IH]; [destruct Fh|]. cbn in W. inversion W; subst.
    assert (Hno : forall z, ~ In (z, b) l). { intros z Hz. apply H1. change b with (snd (z, b)). now apply in_map. }
    destruct Fh as [Fh|Fh], Fk as [Fk|Fk]; try congruence; try (injection Fh as -> ->; exfalso; now apply (Hno m));
      try (injection Fk as -> ->; exfalso; now apply (Hno n)). auto.
  - intros i n h Hi Hh. destruct (S i n Hi) as (h' & Hh' & Fh). rewrite Hh in Hh'. injection Hh' as <-.
    unfold get_data. rewrite Fh. split; [reflexivity|]. apply find_in in Fh. now apply (wf_range r W n).
  - intros k n Hk. unfold get_data. now rewrite (K n k (B1 k n Hk)).
  - intros n Hb Hn. unfold get_data. now rewrite N, B2.
Qed.
Print Assumptions C10_requests_partial.

Example C10_case : exists r, requests ["Om"; "Im"; "Fd"; "Om"]%string init_scalars = ([2; 1; 3; 2]%nat, r) /\ get_data "Fd"%string r = 3 /\
  get_data "nothing"%string r = -1.
Proof. eexists. split; [reflexivity|]. split; reflexivity. Qed.

(* Mixed with addScalarData under a name that is taken, two names share one handle. *)
Theorem C10_add_existing_name_refuted :
  exists r1 h r2, r1 = snd (request "a"%string (add_data "Sg"%string init_scalars)) /\
    r2 = add_data "b"%string r1 /\ get_data "a"%string r2 = h /\ get_data "b"%string r2 = h /\ h = 3.
Proof. do 3 eexists. split; [reflexivity|]. split; [reflexivity|]. split; [reflexivity|]. split; reflexivity. Qed.
Print Assumptions C10_add_existing_name_refuted.

(* Access to an integer entry by name uses the handle of the scalar entry of that name: a registered integer entry is
   not found, and the name of a scalar entry yields an unrelated integer entry. *)
Theorem C10_integer_by_name_refuted :
  (exists ints, ints = snd (request "clusters"%string init_integers) /\ get_data "clusters"%string ints = 2 /\
     IntegerData_named "clusters"%string init_scalars ints = None) /\
  IntegerData_named "Sg"%string init_scalars init_integers = Some 0%nat.
Proof. split; [eexists; split; [reflexivity|]; split; reflexivity|reflexivity]. Qed.
Print Assumptions C10_integer_by_name_refuted.
