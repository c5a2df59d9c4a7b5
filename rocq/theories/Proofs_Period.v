(* Creating the ghosts, then any number of moves, each followed by an update of the ghosts. *)
From Coq Require Import String.
From Verif Require Import Lib Model_Geometry Model_Store Model_Buffer Model_Topology Model_Messages Model_Ghosts Spec_Geometry Spec_Store
  Spec_Buffer Spec_Topology Proofs_Topology1 Proofs_Topology2 Proofs_Topology3 Proofs_Topology4 Proofs_Messages1 Proofs_Messages2 Proofs_Messages3 Proofs_Messages4
  Proofs_Messages5.
From Coq Require Import Permutation ZifyBool ZifyNat.
Local Open Scope list_scope.

Section PERIOD.
Variables (bx : box) (P : nat) (t : kdtree) (l : ghost_layout).
Hypothesis HP : (2 <= P)%nat.
Hypothesis HB : nonempty (bounds_of bx).
Hypothesis Ht : t = topology_tree P (bounds_of bx).
Hypothesis Hdim : (length bx <= 4)%nat.
Variable bufs : nat -> nat -> list word.

Definition sweeps (fs : list (nat -> part -> part)) : list (round gproc) :=
  flat_map (fun f => [move_round f; update_round bx t l bufs]) fs.

Lemma sweeps_ready fs : (forall f k, In f fs -> keeps_shape (f k)) -> forall gs, ready bx P t l gs -> images bx t l gs ->
  rounds_ok (sweeps fs) gs /\
  exists gs', rounds_all (sweeps fs) gs = Some gs' /\ ready bx P t l gs' /\ images bx t l gs' /\
    (forall k g, nth_error gs k = Some g -> exists g', nth_error gs' k = Some g' /\ g_own g' = all_moved fs k (g_own g) /\
       st_number (g_gho g') = st_number (g_gho g)) /\
    (forall n k, usent bx t gs' n k = map (all_moves fs n) (usent bx t gs n k)).
Proof.
  induction fs as [|f fs IH]; intros Hf gs HR HI.
  - split; [exact I|]. exists gs. split; [reflexivity|]. split; [exact HR|]. split; [exact HI|]. split; [eauto|].
    intros n k. unfold all_moves. cbn [fold_left]. now rewrite map_id.
  - destruct (move_ready bx P t l HP Hdim f gs HR) as (M1 & gs1 & M2 & M3 & M4 & M5). { intros k. apply Hf. now left. }
    destruct (update_ready bx P t l HP HB Ht Hdim bufs gs1 M3) as (U1 & gs2 & U2 & U3 & U4 & U5 & U6).
    destruct (IH (fun f0 k H => Hf f0 k (or_intror H)) gs2 U3 U4) as (R1 & gs' & R2 & R3 & R4 & R5 & R6).
    change (sweeps (f :: fs)) with (move_round f :: update_round bx t l bufs :: sweeps fs).
    split.
    + split; [exact M1|]. intros ss1 E1. rewrite M2 in E1. injection E1 as <-. split; [exact U1|]. intros ss2 E2. rewrite U2 in E2. injection E2 as <-. exact R1.
    + exists gs'. cbn [rounds_all]. rewrite M2, U2. split; [exact R2|]. split; [exact R3|]. split; [exact R4|]. split.
      * intros k g Hk. specialize (M4 k g Hk). destruct (U5 k _ M4) as (g2 & V1 & V2 & V3). destruct (R5 k g2 V1) as (g3 & W1 & W2 & W3).
        exists g3. split; [exact W1|]. split; [rewrite W2, V2; reflexivity|]. rewrite W3, V3. reflexivity.
      * intros n k. rewrite R6, U6, M5, map_map. reflexivity.
Qed.

Lemma period_ready dw cut cbufs fs gs : (forall f k, In f fs -> keeps_shape (f k)) -> length gs = P ->
  (forall k g, nth_error gs k = Some g -> (st_size (g_own g) <= st_cap (g_own g))%nat /\ st_dims (g_own g) = length bx /\
    data_width (g_own g) = dw /\ Forall (shaped (g_own g)) (stored (g_own g)) /\ st_size (g_gho g) = 0%nat) ->
  (forall k j g h, nth_error gs k = Some g -> nth_error gs j = Some h -> same_layout (g_own g) (g_gho h)) ->
  (send_om l = true -> exists e, om_entry l = Some e /\ forall k g, nth_error gs k = Some g -> (e < 2 + st_nes (g_own g))%nat) ->
  let rounds := create_round bx t dw cut cbufs :: sweeps fs in
  rounds_ok rounds gs /\
  exists gs', rounds_all rounds gs = Some gs' /\ ready bx P t l gs' /\ images bx t l gs' /\
    (forall k g, nth_error gs k = Some g -> exists g', nth_error gs' k = Some g' /\ g_own g' = all_moved fs k (g_own g) /\
       st_number (g_gho g') = (2 * Z.of_nat (st_size (g_gho g')))%Z) /\
    (forall n k g, nth_error gs n = Some g -> usent bx t gs' n k = map (all_moves fs n)
        (if existsb (Nat.eqb k) (neighbor_ranks bx n t) then filter (nearto bx t cut n k) (stored (g_own g)) else [])).
Proof.
  intros Hf HL HI HLay Hom rounds.
  destruct (create_ready bx P t l HP HB Ht Hdim dw cut cbufs gs HL HI HLay Hom) as (C1 & gs1 & C2 & C3 & C4 & C5 & C6).
  destruct (sweeps_ready fs Hf gs1 C3 C4) as (R1 & gs' & R2 & R3 & R4 & R5 & R6).
  split.
  - split; [exact C1|]. intros ss E. rewrite C2 in E. injection E as <-. exact R1.
  - exists gs'. unfold rounds. cbn [rounds_all]. rewrite C2. split; [exact R2|]. split; [exact R3|]. split; [exact R4|]. split.
    + intros k g Hk. destruct (C5 k g Hk) as (g1 & D1 & D2 & D3). destruct (R5 k g1 D1) as (g' & W1 & W2 & W3). exists g'. split; [exact W1|].
      split; [now rewrite W2, D2|]. rewrite W3, D3. f_equal. f_equal.
      (* the number of ghosts does not change *)
      assert (Hlt : (k < P)%nat) by (rewrite <- HL; apply nth_error_Some; congruence).
      destruct (leaf_exists t P k (ranks_seq bx P t HP HB Ht) Hlt) as (kb & _ & Hkb).
      assert (Len : forall hs h, ready bx P t l hs -> images bx t l hs -> nth_error hs k = Some h ->
        length (flat_map (fun n => usent bx t hs n k) (neighbor_ranks bx k t)) = st_size (g_gho h)).
      { intros hs h (_ & X & _) Y Hh. specialize (Y k h kb Hh Hkb). apply Forall2_len in Y. destruct (X k h Hh) as (_ & _ & _ & _ & F & _).
        unfold neighbor_ranks. rewrite Y. unfold stored. rewrite firstn_length. unfold Proofs_Buffer.fits, st_cap in F. lia. }
      rewrite <- (Len gs1 g1 C3 C4 D1), <- (Len gs' g' R3 R4 W1).
      clear - R6. induction (neighbor_ranks bx k t) as [|n ns IHn]; [reflexivity|]. cbn [flat_map]. rewrite !app_length, IHn, R6, map_length. reflexivity.
    + intros n k g Hn. now rewrite R6, (C6 n k g Hn).
Qed.
End PERIOD.
