(* C150: bonds and chains keep joining the particles they were made between. *)
From Verif Require Import Lib Model_Store Spec_Store Proofs_Store3 Proofs_Store4 Proofs_Store5 Proofs_Store6 Model_Group Spec_Group Proofs_Group Model_Bonds Spec_Bonds Proofs_Bonds
  Properties_Store.
From Coq Require Import ZifyBool ZifyNat.
Local Open Scope Z_scope.

Lemma reach_good dims nev nes nei s : reach_ids (empty_store dims nev nes nei) s -> good s.
Proof. intros R. destruct (empty_inv dims nev nes nei) as [I Hid]. exact (reach_ids_inv _ _ I Hid R). Qed.

(* Whatever is added, removed and sorted: the i-th pair that the bonds pull together has the distance at which the i-th bond was made,
   and if both particles of that bond live it is the two of them, where they are now. Condition: after the forces of a step nothing is
   reordered or removed before the step ends. *)
Theorem C150_bonds_partial (dims nev nes nei : nat) (s0 s : store) (b b' : bonds) (m : made) (l : list (part * part * (list num * list num))) :
  reach_ids (empty_store dims nev nes nei) s0 -> bonded_history s0 s b m -> bond_interact s b = Some (l, b') ->
  Forall2 (fun e r => snd r = snd e /\ (both_live s e -> joins s e r)) m l.
Proof. intros R H E. destruct (bonded_ok _ _ _ _ H (reach_good _ _ _ _ _ R)) as [Hg Hb]. exact (proj1 (proj1 (b_ok_interact s b m Hg Hb) l b' E)). Qed.
Print Assumptions C150_bonds_partial.

(* While all bonded particles live the bonds can be worked out, and every bond joins its two particles. *)
Theorem C150_bonds_never_fail_partial (dims nev nes nei : nat) (s0 s : store) (b : bonds) (m : made) :
  reach_ids (empty_store dims nev nes nei) s0 -> bonded_history s0 s b m -> (forall e, In e m -> both_live s e) ->
  exists l b', bond_interact s b = Some (l, b') /\ Forall2 (joins s) m l.
Proof.
  intros R H Hv. destruct (bonded_ok _ _ _ _ H (reach_good _ _ _ _ _ R)) as [Hg Hb]. destruct (b_ok_interact s b m Hg Hb) as [X Y].
  destruct (Y Hv) as (l & b' & E). exists l, b'. split; [exact E|]. destruct (X l b' E) as [F _]. clear - F Hv.
  induction F as [|e r m l [_ Ha] _ IH]; constructor; [apply Ha, Hv; now left|apply IH; intros; apply Hv; now right].
Qed.
Print Assumptions C150_bonds_never_fail_partial.

(* The own loop of the bonds in two and three dimensions: only living particles are pulled, and each bond of two living particles acts. *)
Theorem C150_own_loop_partial (dims nev nes nei : nat) (s0 s : store) (b b' : bonds) (m : made) (l : list (part * part * (list num * list num))) :
  reach_ids (empty_store dims nev nes nei) s0 -> bonded_history s0 s b m -> bond_interact_own s b = Some (l, b') ->
  (forall p q d, In (p, q, d) l -> alive p /\ alive q) /\ (forall e, In e m -> both_live s e -> exists r, In r l /\ joins s e r).
Proof.
  intros R H E. destruct (bonded_ok _ _ _ _ H (reach_good _ _ _ _ _ R)) as [Hg Hb]. unfold bond_interact_own in E.
  destruct (bond_interact s b) as [[l1 b1]|] eqn:E1; [|discriminate]. destruct (bond_interact s b1) as [[l2 b2]|] eqn:E2; [|discriminate]. injection E as <- <-.
  destruct (proj1 (b_ok_interact s b m Hg Hb) _ _ E1) as (_ & H1 & H2 & H3 & H4 & H5).
  assert (Hb1 : b_ok s b1 m).
  { destruct Hb as (_ & _ & _ & (_ & N4 & _) & (_ & N5 & _)). split; [exact H1|]. split; [exact H2|]. split; [exact H3|].
    split; (split; [eapply f2_len; eassumption|split; [assumption|now right]]). }
  destruct (proj1 (b_ok_interact s b1 m Hg Hb1) _ _ E2) as (F & _). split.
  - intros p q d Hin. apply filter_In in Hin as [_ Hin]. cbn in Hin. unfold alive. lia.
  - intros e He Hv. clear - F He Hv. induction F as [|e1 r m l [_ Ha] _ IH]; [destruct He|]. destruct He as [->|He].
    + exists r. pose proof (Ha Hv) as Hj. split; [|exact Hj]. apply filter_In. split; [now left|]. destruct Hj as ((A & _) & (B & _) & _). unfold alive in *. lia.
    + destruct (IH He) as (r' & Hr & Hj). exists r'. split; [|exact Hj]. apply filter_In in Hr as [Hr Hf]. apply filter_In. split; [now right|exact Hf].
Qed.
Print Assumptions C150_own_loop_partial.

(* Chains: the same for the links between one atom and the next, in the order in which the atoms were added. *)
Theorem C150_chain_partial (dims nev nes nei : nat) (s0 s : store) (c c' : chain) (a : list Z) (m : made) (l : list (part * part * (list num * list num))) :
  reach_ids (empty_store dims nev nes nei) s0 -> chain_history s0 s c a m ->
  map fst m = combine a (tl a) /\
  (chain_interact s c = Some (l, c') -> Forall2 (fun e r => snd r = snd e /\ (both_live s e -> joins s e r)) m l).
Proof.
  intros R H. destruct (chain_ok _ _ _ _ _ H (reach_good _ _ _ _ _ R)) as [Hg Hb]. split; [apply Hb|].
  intros E. exact (proj1 (proj1 (c_ok_interact s c a m Hg Hb) l c' E)).
Qed.
Print Assumptions C150_chain_partial.
Theorem C150_chain_never_fails_partial (dims nev nes nei : nat) (s0 s : store) (c : chain) (a : list Z) (m : made) :
  reach_ids (empty_store dims nev nes nei) s0 -> chain_history s0 s c a m -> (forall g, In g a -> lives s g) ->
  exists l c', chain_interact s c = Some (l, c') /\ Forall2 (joins s) m l.
Proof.
  intros R H Hv. destruct (chain_ok _ _ _ _ _ H (reach_good _ _ _ _ _ R)) as [Hg Hb]. destruct (c_ok_interact s c a m Hg Hb) as [X Y].
  assert (Hv' : forall e, In e m -> both_live s e).
  { intros [[g1 g2] d] He. destruct Hb as (_ & _ & Hm & _). assert (Hin : In (g1, g2) (links a)) by (rewrite <- Hm; apply (in_map fst _ _ He)).
    unfold links in Hin. split; apply Hv; cbn; [eapply in_combine_l; exact Hin|apply in_combine_r in Hin; destruct a; [destruct Hin|right; exact Hin]]. }
  destruct (Y Hv') as (l & c' & E). exists l, c'. split; [exact E|]. destruct (X l c' E) as [F _]. clear - F Hv'.
  induction F as [|e r m l [_ Ha] _ IH]; constructor; [apply Ha, Hv'; now left|apply IH; intros; apply Hv'; now right].
Qed.
Print Assumptions C150_chain_never_fails_partial.

(* Five particles with ids 0, 2, 4, 6, 8 at 5, 4, 3, 2, 1. *)
Definition ex_row : list op := [ex_add 5 0; ex_add 4 0; ex_add 3 0; ex_add 2 0; ex_add 1 0].
Definition ids_of (r : option (list (part * part * (list num * list num)) * bonds)) : option (list (Z * Z)) :=
  option_map (fun q => map (fun e => (p_gid (fst (fst e)), p_gid (snd (fst e)))) (fst q)) r.
Definition types_of (r : option (list (part * part * (list num * list num)) * bonds)) : option (list (Z * Z)) :=
  option_map (fun q => map (fun e => (p_type (fst (fst e)), p_type (snd (fst e)))) (fst q)) r.
Definition row : store := Eval vm_compute in match run ex_row ex_empty with Some s => s | None => ex_empty end.
Definition bonded_row (g1 g2 : Z) : bonds := match addBond row g1 g2 no_bonds with Some b => b | None => no_bonds end.
(* the i-th particle of the row *)
Definition row_at (i : nat) : part := nth i (st_mem row) (blank row).

Lemma row_reach : reach_ids ex_empty row.
Proof.
  assert (G : forall ops s1 s, reach_ids ex_empty s1 -> Forall (fun o => id_op o /\ forall t, allowed t o) ops -> run ops s1 = Some s -> reach_ids ex_empty s).
  { induction ops as [|o ops IH]; intros s1 s R F E; cbn [run] in E; [injection E as <-; exact R|].
    destruct (step o s1) as [s2|] eqn:Es; [|discriminate]. inversion_clear F as [|? ? [Fo Fa] Fr]. eapply IH; [|exact Fr|exact E]. eapply reachi_step; [exact R|exact Fo|apply Fa|exact Es]. }
  apply (G ex_row ex_empty); [constructor| |vm_compute; reflexivity]. repeat constructor; cbn; lia.
Qed.
Lemma row_bonded i j : (i < 5)%nat -> (j < 5)%nat ->
  bonded_history row row (bonded_row (2 * Z.of_nat i) (2 * Z.of_nat j)) [(2 * Z.of_nat i, 2 * Z.of_nat j, (p_x (row_at i), p_x (row_at j)))].
Proof.
  intros Hi Hj. pose proof (bonded_start row) as H0.
  assert (A : forall k, (k < 5)%nat -> at_ row k (row_at k) /\ alive (row_at k) /\ p_gid (row_at k) = 2 * Z.of_nat k).
  { intros k Hk. do 5 (destruct k as [|k]; [unfold at_, alive, row_at; vm_compute; repeat split; (reflexivity || lia || discriminate)|]). lia. }
  destruct (A i Hi) as (A1 & V1 & G1). destruct (A j Hj) as (A2 & V2 & G2).
  refine (bonded_add row row no_bonds [] _ _ i j _ _ _ H0 A1 V1 G1 A2 V2 G2 _).
  do 5 (destruct i as [|i]; [do 5 (destruct j as [|j]; [vm_compute; reflexivity|]); lia|]). lia.
Qed.

(* The bond between 0 and 8: the row is sorted and the forces of a step are computed, then particle 4 is taken out, whereby 0 is moved
   to its place. *)
Example C150_case : reach_ids ex_empty row /\ exists s b m, bonded_history row s b m /\ m = [(0, 8, (p_x (row_at 0), p_x (row_at 4)))] /\ (forall e, In e m -> both_live s e) /\
  map p_gid (firstn 4 (st_mem s)) = [8; 6; 0; 2] /\ b_left b = [4] /\ b_right b = [0] /\ ids_of (bond_interact s b) = Some [(0, 8)] /\
  ids_of (bond_interact_own s b) = Some [(0, 8)].
Proof.
  split; [exact row_reach|]. destruct (step OpSort row) as [s1|] eqn:E1; [|vm_compute in E1; discriminate].
  pose proof (row_bonded 0 4 ltac:(lia) ltac:(lia)) as H0. change (2 * Z.of_nat 0) with 0 in H0. change (2 * Z.of_nat 4) with 8 in H0.
  assert (C1 : calls (fun _ => True) row s1).
  { apply (calls_one _ row OpSort s1 s1); [exact Logic.I|exact Logic.I|left; reflexivity|exact E1|constructor]. }
  pose proof (bonded_calls _ _ _ _ _ H0 C1) as H1.
  destruct (bond_interact s1 (bonded_row 0 8)) as [[l b1]|] eqn:E2; [|exfalso; vm_compute in E1; injection E1 as <-; vm_compute in E2; discriminate].
  pose proof (bonded_step _ _ _ _ _ _ _ false H1 E2 (calls_nil _ s1)) as H2.
  vm_compute in E1. injection E1 as <-. vm_compute in E2. injection E2 as <- <-.
  match type of H2 with bonded_history _ ?s ?b _ => set (sv := s) in H2; set (bv := b) in H2 end.
  destruct (run [OpMark 2; OpRemove] sv) as [s3|] eqn:E3; [|vm_compute in E3; discriminate].
  assert (C2 : calls (fun _ => True) sv s3).
  { cbn [run] in E3. destruct (step (OpMark 2) sv) as [s2|] eqn:Em; [|discriminate]. destruct (step OpRemove s2) as [s4|] eqn:Er; [|discriminate]. injection E3 as <-.
    apply (calls_one _ sv (OpMark 2) s2 s4); [exact Logic.I|exact Logic.I|vm_compute; split; [discriminate|reflexivity]|exact Em|].
    apply (calls_one _ s2 OpRemove s4 s4); [exact Logic.I|exact Logic.I| |exact Er|constructor]. vm_compute in Em. injection Em as <-. right. vm_compute. reflexivity. }
  exists s3, bv. eexists. split; [exact (bonded_calls _ _ _ _ _ H2 C2)|]. split; [reflexivity|].
  vm_compute in E3. injection E3 as <-. split; [|vm_compute; repeat split].
  intros e [<-|[]]. split; apply Proofs_Group.livesb_spec; vm_compute; reflexivity.
Qed.

(* A bonded particle is removed: the bond stays, and at the next forces the place -1 is accessed. *)
Theorem C150_removed_refuted : exists s b, addBond row 0 2 no_bonds = Some b /\ run [OpMark 0; OpRemove] row = Some s /\ lives s 2 /\
  bond_interact s b = None /\ bond_interact_own s b = None.
Proof. do 2 eexists. split; [vm_compute; reflexivity|]. split; [vm_compute; reflexivity|]. split; [apply Proofs_Group.livesb_spec; vm_compute; reflexivity|]. split; vm_compute; reflexivity. Qed.
Print Assumptions C150_removed_refuted.

(* If it was the last one in the arrays the flag is not set: generic bonds go on pulling towards the place where it was, which is marked
   as empty. *)
Theorem C150_pulls_to_removed_refuted : exists s b, addBond row 2 8 no_bonds = Some b /\ run [OpMark 4; OpRemove] row = Some s /\ ~ lives s 8 /\
  ids_of (bond_interact s b) = Some [(2, 8)] /\ types_of (bond_interact s b) = Some [(0, -1)] /\ ids_of (bond_interact_own s b) = Some [].
Proof.
  do 2 eexists. split; [vm_compute; reflexivity|]. split; [vm_compute; reflexivity|].
  split; [intros H; apply Proofs_Group.livesb_spec in H; vm_compute in H; discriminate|]. split; [vm_compute; reflexivity|]. split; vm_compute; reflexivity.
Qed.
Print Assumptions C150_pulls_to_removed_refuted.

(* If the particles are sorted after the forces of a step, the run loop clears the flag at the end of the step and the bonds never learn
   of it: the bond between 0 and 2 pulls 8 and 6 together. *)
Theorem C150_late_sort_refuted : exists s b l b1, addBond row 0 2 no_bonds = Some b /\ bond_interact row b = Some (l, b1) /\
  step OpSort row = Some s /\ both_live (set_flags false true s) (0, 2, ([], [])) /\ ids_of (bond_interact (set_flags false true s) b1) = Some [(8, 6)].
Proof.
  do 4 eexists. split; [vm_compute; reflexivity|]. split; [vm_compute; reflexivity|]. split; [vm_compute; reflexivity|].
  split; [split; apply Proofs_Group.livesb_spec; vm_compute; reflexivity|]. vm_compute. reflexivity.
Qed.
Print Assumptions C150_late_sort_refuted.

(* A chain that is begun between steps: its first atom is looked for at the place that has the number of its id. *)
Theorem C150_chain_first_atom_refuted : exists c1 c2 l, addAtom row 4 no_chain = Some c1 /\ addAtom row 0 c1 = Some c2 /\ st_remake row = false /\
  lives row 4 /\ lives row 0 /\ chain_interact row c2 = Some (l, c2) /\ map (fun e => (p_gid (fst (fst e)), p_gid (snd (fst e)))) l = [(8, 0)].
Proof.
  do 3 eexists. split; [vm_compute; reflexivity|]. split; [vm_compute; reflexivity|]. split; [reflexivity|].
  split; [apply Proofs_Group.livesb_spec; vm_compute; reflexivity|]. split; [apply Proofs_Group.livesb_spec; vm_compute; reflexivity|]. split; vm_compute; reflexivity.
Qed.
Print Assumptions C150_chain_first_atom_refuted.

(* A chain made of 4, 0, 6 before the run: sorted, then it joins 4 with 0 and 0 with 6. *)
Example C150_chain_case : exists c1 c2 c3 s, addAtom row 4 no_chain = Some c1 /\ addAtom row 0 c1 = Some c2 /\ addAtom row 6 c2 = Some c3 /\
  step OpSort row = Some s /\ option_map (fun q => map (fun e => (p_gid (fst (fst e)), p_gid (snd (fst e)))) (fst q)) (chain_interact s c3) = Some [(4, 0); (0, 6)].
Proof. do 4 eexists. repeat (split; [vm_compute; reflexivity|]). vm_compute. reflexivity. Qed.
