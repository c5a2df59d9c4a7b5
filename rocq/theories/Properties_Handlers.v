(* C23 (containers of pairs) and C24 (the table of interactions between types). *)
From Verif Require Import Lib Model_Handlers Spec_Handlers Proofs_Handlers Proofs_ForceMaster.
Local Open Scope list_scope.

(* C23, VerletList: whatever was called before, after a clear, any additions and at least one close, exactly the added
   pairs are visited, in the order of addition, split by list, and the size is the number of additions.
   Partial: additions after a close, or visiting without a close, go wrong (refuted below). *)
Theorem C23_verlet_partial : forall history adds n l,
  valid_lists history -> valid_lists adds -> (l < 3)%nat ->
  (forall c, In c adds -> exists a b l', c = AddPair a b l' /\ (0 <= a)%Z) ->
  exists s, calls verlet_call (history ++ Clear :: adds ++ repeat Close (S n)) new_verlet = Some s /\
            verlet_visit l s = Some (added l adds) /\ verlet_size s = length adds.
Proof.
  intros h adds n l HV HA Hl HO. rewrite calls_app. destruct (verlet_total h HV new_verlet eq_refl) as (s0 & E0 & _). rewrite E0.
  cbn [calls verlet_call]. rewrite calls_app. destruct (verlet_adds adds) as (s1 & E1 & L1 & N1 & S1).
  { intros c Hc. destruct (HO c Hc) as (a & b & l' & -> & Ha). exists a, b, l'. split; [reflexivity|lia]. }
  { exact HA. }
  rewrite E1. cbn [repeat calls verlet_call].
  destruct (verlet_closes n (mkV (map vl_close (v_lists s1)) (v_pairs s1))) as (s2 & E2 & N2 & L2 & S2). exists s2. split; [exact E2|].
  cbn [v_lists v_pairs] in *. rewrite map_length in L2. unfold verlet_visit, verlet_size. split; [|congruence].
  destruct (nth_error (v_lists s2) l) as [v|] eqn:Ev. 2:{ apply nth_error_None in Ev. lia. }
  apply closed_visit. apply (S2 l v); [|exact Ev]. intros v0 Hv0. rewrite nth_error_map in Hv0. destruct (nth_error (v_lists s1) l) as [v1|] eqn:E; [|discriminate].
  injection Hv0 as <-. apply close_holds. now apply S1.
Qed.
Print Assumptions C23_verlet_partial.

(* C23, VerletListVecPairs and VerletListPairs: after any calls at all. *)
Theorem C23_vec : forall cs l, valid_lists cs -> (l < 3)%nat ->
  exists s, calls vec_call cs new_vec = Some s /\ vec_visit l s = Some (added l cs) /\
            vec_size s = (length (added 0 cs) + length (added 1 cs) + length (added 2 cs))%nat.
Proof.
  intros cs l HV Hl. destruct (vec_calls cs HV) as (s & E & L & S). exists s. split; [exact E|]. split.
  - unfold vec_visit. destruct (nth_error s l) as [v|] eqn:Ev. 2:{ apply nth_error_None in Ev. lia. } rewrite (S l v Ev). apply vec_loop_spec.
  - destruct s as [|a [|b [|c [|? ?]]]]; try discriminate L. unfold vec_size. cbn [map list_sum fold_right].
    rewrite (S 0%nat a eq_refl), (S 1%nat b eq_refl), (S 2%nat c eq_refl).
    assert (F : forall ps : list (Z * Z), length (flat_map (fun p => [fst p; snd p]) ps) = (2 * length ps)%nat).
    { induction ps as [|p ps IH]; [reflexivity|]. cbn. rewrite IH. lia. }
    rewrite !F. replace (2 * length (added 0 cs) + (2 * length (added 1 cs) + (2 * length (added 2 cs) + 0)))%nat
      with ((length (added 0 cs) + length (added 1 cs) + length (added 2 cs)) * 2)%nat by lia. now apply Nat.div_mul.
Qed.
Print Assumptions C23_vec.
Theorem C23_pairs : forall cs l, valid_lists cs -> (l < 3)%nat ->
  exists s, calls pairs_call cs new_pairs = Some s /\ pairs_visit l s = Some (added l cs) /\
            pairs_size s = (length (added 0 cs) + length (added 1 cs) + length (added 2 cs))%nat.
Proof.
  intros cs l HV Hl. destruct (pairs_calls cs HV) as (s & E & L & S). exists s. split; [exact E|]. split.
  - unfold pairs_visit. destruct (nth_error s l) as [v|] eqn:Ev. 2:{ apply nth_error_None in Ev. lia. } now rewrite (S l v Ev).
  - destruct s as [|a [|b [|c [|? ?]]]]; try discriminate L. unfold pairs_size. cbn [map list_sum fold_right].
    rewrite (S 0%nat a eq_refl), (S 1%nat b eq_refl), (S 2%nat c eq_refl). lia.
Qed.
Print Assumptions C23_pairs.

(* C23, interchangeable: for the sequence of calls a pair search makes, the three containers apply the force (any function
   of the particle state, with any dependence on the order) to the same effect, for real particles and for ghosts. *)
Theorem C23_interchangeable : forall (State : Type) (act : bool -> Z -> Z -> State -> State) (st : State) adds,
  valid_lists adds -> (forall c, In c adds -> exists a b l, c = AddPair a b l /\ (0 <= a)%Z) ->
  let cs := Clear :: adds ++ [Close] in
  exists s1 s2 s3 st' gst',
    calls verlet_call cs new_verlet = Some s1 /\ calls vec_call cs new_vec = Some s2 /\ calls pairs_call cs new_pairs = Some s3 /\
    st' = fold_left (fun st p => act true (fst p) (snd p) st) (added 1 adds)
            (fold_left (fun st p => act false (fst p) (snd p) st) (added 0 adds) st) /\
    gst' = fold_left (fun st p => act true (fst p) (snd p) st) (added 2 adds) st /\
    interact verlet_visit act s1 st = Some st' /\ interact vec_visit act s2 st = Some st' /\ interact pairs_visit act s3 st = Some st' /\
    interact_ghosts verlet_visit act s1 st = Some gst' /\ interact_ghosts vec_visit act s2 st = Some gst' /\ interact_ghosts pairs_visit act s3 st = Some gst'.
Proof.
  intros State act st adds HV HO cs.
  assert (V0 : valid_lists []) by (intros a b l []).
  assert (HC : valid_lists cs). { intros a b l [H|H]; [discriminate|]. apply in_app_or in H as [H|[H|[]]]; [now apply (HV a b)|discriminate]. }
  assert (AD : forall l, added l cs = added l adds).
  { intros l. unfold cs. change (Clear :: adds ++ [Close]) with ((Clear :: adds) ++ [Close]). rewrite added_snoc. reflexivity. }
  assert (X1 : exists s1, calls verlet_call cs new_verlet = Some s1 /\ forall l, (l < 3)%nat -> verlet_visit l s1 = Some (added l adds)).
  { destruct (C23_verlet_partial [] adds 0 0 V0 HV ltac:(lia) HO) as (s & E & _). exists s. split; [exact E|]. intros l Hl.
    destruct (C23_verlet_partial [] adds 0 l V0 HV Hl HO) as (s' & E' & V & _). cbn [app repeat] in *. congruence. }
  assert (X2 : exists s2, calls vec_call cs new_vec = Some s2 /\ forall l, (l < 3)%nat -> vec_visit l s2 = Some (added l adds)).
  { destruct (C23_vec cs 0 HC ltac:(lia)) as (s & E & _). exists s. split; [exact E|]. intros l Hl.
    destruct (C23_vec cs l HC Hl) as (s' & E' & V & _). rewrite AD in V. congruence. }
  assert (X3 : exists s3, calls pairs_call cs new_pairs = Some s3 /\ forall l, (l < 3)%nat -> pairs_visit l s3 = Some (added l adds)).
  { destruct (C23_pairs cs 0 HC ltac:(lia)) as (s & E & _). exists s. split; [exact E|]. intros l Hl.
    destruct (C23_pairs cs l HC Hl) as (s' & E' & V & _). rewrite AD in V. congruence. }
  destruct X1 as (s1 & E1 & V1). destruct X2 as (s2 & E2 & V2). destruct X3 as (s3 & E3 & V3).
  exists s1, s2, s3. eexists. eexists. split; [exact E1|]. split; [exact E2|]. split; [exact E3|]. split; [reflexivity|]. split; [reflexivity|].
  unfold interact, interact_ghosts. rewrite !V1, !V2, !V3 by lia. repeat split.
Qed.
Print Assumptions C23_interchangeable.

Example C23_case : let adds := [AddPair 4 7 0; AddPair 4 2 0; AddPair 4 9 1; AddPair 5 1 0; AddPair 4 3 0; AddPair 5 11 2] in
  valid_lists adds /\ (forall c, In c adds -> exists a b l, c = AddPair a b l /\ (0 <= a)%Z) /\ added 0 adds = [(4,7); (4,2); (5,1); (4,3)]%Z.
Proof.
  cbv zeta. split; [|split; [|reflexivity]].
  - intros a b l H. cbn in H. intuition; match goal with E : AddPair _ _ _ = _ |- _ => injection E as _ _ <-; lia end.
  - intros c H. cbn in H. intuition; subst c; eexists _, _, _; (split; [reflexivity|lia]).
Qed.

(* C23 fails for VerletList when pairs are added after a close (as when an interaction's list is completed for ghosts after
   being closed): the second head's neighbours are lost ... *)
Theorem C23_add_after_close_refuted : exists cs s, valid_lists cs /\ calls verlet_call cs new_verlet = Some s /\
  added 0 cs = [(1, 2); (3, 4)]%Z /\ verlet_visit 0 s = Some [(1, 2)]%Z.
Proof.
  exists [AddPair 1 2 0; Close; AddPair 3 4 0; Close]. eexists. split; [|split; [vm_compute; reflexivity|split; vm_compute; reflexivity]].
  intros a b l H. cbn in H. intuition; match goal with E : AddPair _ _ _ = _ |- _ => injection E as _ _ <-; lia | E : Close = _ |- _ => discriminate E end.
Qed.
Print Assumptions C23_add_after_close_refuted.
(* ... and visiting a list that is not closed reads beyond the end of a vector. *)
Theorem C23_not_closed_refuted : forall a b, (0 <= a)%Z -> exists s, calls verlet_call [AddPair a b 0] new_verlet = Some s /\ verlet_visit 0 s = None.
Proof.
  intros a b Ha. eexists. split; [reflexivity|]. unfold verlet_visit. cbn. unfold vl_add. cbn [vl_last]. destruct (Z.eqb_spec a (-1)); [lia|]. reflexivity.
Qed.
Print Assumptions C23_not_closed_refuted.
(* C23 fails for VerletListVector: the first addition already writes outside a vector, whatever pair is added, and clearing
   or closing first does not help. *)
Theorem C23_vector_refuted : forall before a b l after, (forall c, In c before -> c = Close \/ c = Clear) ->
  calls vector_call (before ++ AddPair a b l :: after) new_vector = None.
Proof.
  intros before a b l after HB.
  assert (X : forall bs, (forall c, In c bs -> c = Close \/ c = Clear) -> calls vector_call bs new_vector = Some new_vector).
  { induction bs as [|c bs IH]; intros H; [reflexivity|]. destruct (H c (or_introl eq_refl)) as [-> | ->]; cbn [calls vector_call]; [|change (map (map (fun _ : list Z => [])) (fst new_vector), 0%nat) with new_vector];
      apply IH; intros c Hc; apply H; now right. }
  rewrite calls_app, (X before HB). cbn [calls]. replace (vector_call (AddPair a b l) new_vector) with (@None neighbor_vectors); [reflexivity|].
  unfold vector_call, new_vector. cbn [fst snd repeat].
  destruct l as [|[|[|l]]]; cbn [nth_error].
  1,2,3: destruct (_ <? 0)%Z; [reflexivity|]; rewrite put_none by (cbn; lia); reflexivity.
  now destruct l.
Qed.
Print Assumptions C23_vector_refuted.

(* ------------------------------------------------------------------ C24 *)
(* For every sequence of settings with valid types: none of them goes outside a vector, the interaction reported for a pair
   of types is the one set last for it, and null for invalid types. *)
Theorem C24_last_set : forall cutoff n ss, valid_types n ss ->
  exists fm, apply_settings cutoff ss (new_fm n) = Some fm /\
    (forall a b, (a < n)%nat -> (b < n)%nat -> in_force ss a b (getInteraction (Z.of_nat a) (Z.of_nat b) (initialize fm))) /\
    (forall a b : Z, ~ (0 <= a < Z.of_nat n)%Z \/ ~ (0 <= b < Z.of_nat n)%Z -> getInteraction a b (initialize fm) = None).
Proof.
  intros cutoff n ss HV. destruct (settings_spec cutoff n ss HV) as (fm & E & W & G & _). exists fm. split; [exact E|].
  destruct (initialize_spec cutoff n fm W) as ((W1 & _) & G' & _). cbv zeta in *. unfold getInteraction. rewrite W1, G'. split.
  - intros a b Ha Hb. destruct (Z.leb_spec (Z.of_nat n) (Z.of_nat a)); [lia|]. destruct (Z.leb_spec (Z.of_nat n) (Z.of_nat b)); [lia|].
    destruct (Z.ltb_spec (Z.of_nat a) 0); [lia|]. destruct (Z.ltb_spec (Z.of_nat b) 0); [lia|]. cbn [orb]. rewrite !Nat2Z.id. apply G.
  - intros a b H. destruct (Z.leb_spec (Z.of_nat n) a); [reflexivity|]. destruct (Z.leb_spec (Z.of_nat n) b); [reflexivity|].
    destruct (Z.ltb_spec a 0); [reflexivity|]. destruct (Z.ltb_spec b 0); [reflexivity|]. lia.
Qed.
Print Assumptions C24_last_set.
Lemma in_force_unique ss a b x y : in_force ss a b x -> in_force ss a b y -> x = y.
Proof.
  intros Hx Hy. inversion Hx as [ss1 a1 b1 N1|p1 s1 q1 a1 b1 C1 N1]; subst; inversion Hy as [ss2 a2 b2 N2|p2 s2 q2 a2 b2 C2 N2]; subst; try reflexivity.
  - exfalso. apply (N1 s2); [apply in_or_app; right; now left|exact C2].
  - exfalso. apply (N2 s1); [apply in_or_app; right; now left|exact C1].
  - f_equal. match goal with H0 : _ ++ _ = _ ++ _ |- _ => apply app_eq_app in H0; destruct H0 as (l & [[E1 E2]|[E1 E2]]) end.
    + destruct l as [|t l]; [injection E2; auto|]. injection E2 as <- ->. exfalso. first [apply (N2 s1); [apply in_or_app; right; now left|exact C1]|apply (N1 s2); [apply in_or_app; right; now left|exact C2]].
    + destruct l as [|t l]; [injection E2; auto|]. injection E2 as <- ->. exfalso. first [apply (N2 s1); [apply in_or_app; right; now left|exact C1]|apply (N1 s2); [apply in_or_app; right; now left|exact C2]].
Qed.
(* With reflexive settings (the default) the table is symmetric. *)
Theorem C24_symmetric : forall cutoff n ss, valid_types n ss -> (forall s, In s ss -> s_refl s = true) ->
  exists fm, apply_settings cutoff ss (new_fm n) = Some fm /\ forall a b : Z, getInteraction a b fm = getInteraction b a fm.
Proof.
  intros cutoff n ss HV HR. destruct (settings_spec cutoff n ss HV) as (fm & E & (W1 & W2 & W3 & _) & G & _). exists fm. split; [exact E|].
  assert (X : forall a b, grid_at (fm_grid fm) a b = grid_at (fm_grid fm) b a).
  { intros a b. assert (Sym : forall s, In s ss -> concerns s a b -> concerns s b a).
    { intros s Hs [[H1 H2]|[_ [H1 H2]]]; [right|left]; auto. }
    assert (Sym2 : forall s, In s ss -> concerns s b a -> concerns s a b).
    { intros s Hs [[H1 H2]|[_ [H1 H2]]]; [right|left]; auto. }
    apply (in_force_unique ss b a); [|apply G]. generalize (G a b). intros Hi. inversion Hi as [ss1 a1 b1 N1 E0|p1 s1 q1 a1 b1 C1 N1 E0]; subst.
    - apply IF_none. intros s Hs C. now apply (N1 s Hs), Sym2.
    - apply IF_last; [apply Sym; [apply in_or_app; right; now left|exact C1]|]. intros s' Hs C. apply (N1 s' Hs). apply Sym2; [apply in_or_app; right; now right|exact C]. }
  intros a b. unfold getInteraction.
  destruct (Z.of_nat (fm_n fm) <=? a)%Z, (Z.of_nat (fm_n fm) <=? b)%Z, (a <? 0)%Z, (b <? 0)%Z; try reflexivity. apply X.
Qed.
Print Assumptions C24_symmetric.

(* After initialize: a valid type is reported as interacting exactly if an interaction is in force between it and some type,
   and two valid types exactly if one is in force between them; -1 (a removed particle) never interacts. *)
Theorem C24_interacting_types : forall cutoff n ss, valid_types n ss ->
  exists fm, apply_settings cutoff ss (new_fm n) = Some fm /\
    (forall t, (t < n)%nat -> exists b, typeInteracts (Z.of_nat t) (initialize fm) = Says b /\
       (b = true <-> exists u i, (u < n)%nat /\ (in_force ss t u (Some i) \/ in_force ss u t (Some i)))) /\
    (forall t u, (t < n)%nat -> (u < n)%nat -> exists b, typesInteract (Z.of_nat t) (Z.of_nat u) (initialize fm) = Says b /\
       (b = true <-> exists i, in_force ss t u (Some i))) /\
    (interactingTypes (initialize fm) = true <-> exists t u i, (t < n)%nat /\ (u < n)%nat /\ in_force ss t u (Some i)) /\
    typeInteracts (-1) (initialize fm) = Says false /\
    (forall t : Z, (t < -1)%Z \/ (Z.of_nat n <= t)%Z -> typeInteracts t (initialize fm) = Throws).
Proof.
  intros cutoff n ss HV. destruct (settings_spec cutoff n ss HV) as (fm & E & W & G & _ & _ & A). exists fm. split; [exact E|].
  destruct (initialize_spec cutoff n fm W) as ((W1 & W2 & W3 & W4 & W5) & G' & _ & _ & D & An). cbv zeta in *.
  assert (NF : forall t u, grid_at (fm_grid fm) t u <> None <-> exists i, in_force ss t u (Some i)).
  { intros t u. split.
    - intros H. destruct (grid_at (fm_grid fm) t u) as [i|] eqn:Eg; [|congruence]. exists i. rewrite <- Eg. apply G.
    - intros (i & Hi) H. assert (X := in_force_unique ss t u _ _ Hi (G t u)). congruence. }
  split; [|split; [|split; [|split; [reflexivity|]]]].
  - intros t Ht. destruct (D t Ht) as (b & Eb & Hb). exists b. unfold typeInteracts. rewrite W1.
    destruct (Z.eqb_spec (Z.of_nat t) (-1)); [lia|]. destruct (Z.ltb_spec (Z.of_nat t) 0); [lia|]. destruct (Z.leb_spec (Z.of_nat n) (Z.of_nat t)); [lia|]. cbn [orb].
    rewrite Nat2Z.id, Eb. split; [reflexivity|]. rewrite Hb. split.
    + intros (u & Hu & [HH|HH]); apply NF in HH as (i & Hi); exists u, i; auto.
    + intros (u & i & Hu & [HH|HH]); exists u; (split; [exact Hu|]); [left|right]; apply NF; eauto.
  - intros t u Ht Hu. unfold typesInteract. rewrite W1, G'.
    destruct (Z.eqb_spec (Z.of_nat t) (-1)); [lia|]. destruct (Z.eqb_spec (Z.of_nat u) (-1)); [lia|].
    destruct (Z.ltb_spec (Z.of_nat t) 0); [lia|]. destruct (Z.leb_spec (Z.of_nat n) (Z.of_nat t)); [lia|].
    destruct (Z.ltb_spec (Z.of_nat u) 0); [lia|]. destruct (Z.ltb_spec (Z.of_nat n) (Z.of_nat u)); [lia|]. cbn [orb]. rewrite !Nat2Z.id.
    specialize (NF t u). unfold grid_at in NF. rewrite G' in W2, W3.
    destruct (nth_error (fm_grid fm) t) as [row|] eqn:Er. 2:{ apply nth_error_None in Er. lia. }
    destruct (nth_error row u) as [it|] eqn:Eu. 2:{ apply nth_error_None in Eu. rewrite (W3 row) in Eu; [lia|]. now apply nth_error_In in Er. }
    eexists. split; [reflexivity|]. rewrite <- NF. destruct it; cbn; split; congruence.
  - unfold interactingTypes. rewrite An, A. split.
    + intros [H|(i & j & Hi & Hj & H)]; [discriminate|]. apply NF in H as (k & Hk). eauto 6.
    + intros (t & u & i & Ht & Hu & H). right. exists t, u. split; [exact Ht|]. split; [exact Hu|]. apply NF. eauto.
  - intros t Ht. unfold typeInteracts. rewrite W1. destruct (Z.eqb_spec t (-1)); [lia|]. destruct (Z.ltb_spec t 0); [reflexivity|]. destruct (Z.leb_spec (Z.of_nat n) t); [reflexivity|]. lia.
Qed.
Print Assumptions C24_interacting_types.

(* The cutoff reported for a valid type bounds that of every interaction ever set for it and is one of these, or 1.
   Partial: the claim is about the interactions in force, see the refutation. *)
Theorem C24_max_cutoff_partial : forall cutoff n ss t, valid_types n ss -> (t < n)%nat ->
  exists fm v, apply_settings cutoff ss (new_fm n) = Some fm /\ getMaxCutoff t (initialize fm) = Some v /\ 1 <= v /\
    (forall s i, In s ss -> s_it s = Some i -> s_a s = t \/ s_b s = t -> cutoff i <= v) /\
    (v = 1 \/ exists s i, In s ss /\ s_it s = Some i /\ (s_a s = t \/ s_b s = t) /\ v = cutoff i).
Proof.
  intros cutoff n ss t HV Ht. destruct (settings_spec cutoff n ss HV) as (fm & E & W & _ & _ & M & _). destruct (M t Ht) as (v & H). exists fm, v. split; [exact E|].
  destruct (initialize_spec cutoff n fm W) as (_ & _ & _ & M' & _). unfold getMaxCutoff. cbv zeta in M'. rewrite M'. exact H.
Qed.
Print Assumptions C24_max_cutoff_partial.
(* Each interaction ever set is listed exactly once. *)
Theorem C24_listed_once : forall cutoff n ss, valid_types n ss ->
  exists fm, apply_settings cutoff ss (new_fm n) = Some fm /\ NoDup (fm_list (initialize fm)) /\
    forall i, In i (fm_list (initialize fm)) <-> exists s, In s ss /\ s_it s = Some i.
Proof.
  intros cutoff n ss HV. destruct (settings_spec cutoff n ss HV) as (fm & E & W & _ & L & _). exists fm. split; [exact E|].
  destruct (initialize_spec cutoff n fm W) as (_ & _ & L' & _). cbv zeta in L'. rewrite L'. exact L.
Qed.
Print Assumptions C24_listed_once.

Example C24_case : let ss := [mkSet 0 1 (Some 4%nat) true; mkSet 1 1 (Some 5%nat) true; mkSet 1 0 (Some 6%nat) true; mkSet 1 1 None true; mkSet 2 1 (Some 5%nat) false] in
  valid_types 3 ss /\ in_force ss 0 1 (Some 6%nat) /\ in_force ss 1 1 None /\ in_force ss 2 1 (Some 5%nat) /\ in_force ss 1 2 None.
Proof.
  cbv zeta. split; [|split; [|split; [|split]]].
  - intros s H. cbn in H. intuition; subst s; cbn; lia.
  - apply (IF_last [mkSet 0 1 (Some 4%nat) true; mkSet 1 1 (Some 5%nat) true] (mkSet 1 0 (Some 6%nat) true)); [right; cbn; auto|].
    intros s [<-|[<-|[]]] [[H1 H2]|(H0 & H1 & H2)]; cbn in *; congruence.
  - apply (IF_last [mkSet 0 1 (Some 4%nat) true; mkSet 1 1 (Some 5%nat) true; mkSet 1 0 (Some 6%nat) true] (mkSet 1 1 None true)); [right; cbn; auto|].
    intros s [<-|[]] [[H1 H2]|(H0 & H1 & H2)]; cbn in *; congruence.
  - apply (IF_last [mkSet 0 1 (Some 4%nat) true; mkSet 1 1 (Some 5%nat) true; mkSet 1 0 (Some 6%nat) true; mkSet 1 1 None true] (mkSet 2 1 (Some 5%nat) false)); [left; cbn; auto|]. intros s [].
  - apply IF_none. intros s H [[H1 H2]|(H0 & H1 & H2)]; cbn in H; intuition; subst s; cbn in *; congruence.
Qed.

(* setAll: every pair of valid types. *)
Lemma set_pairs_settings cutoff it ps : forall fm, set_pairs cutoff it ps fm = apply_settings cutoff (map (fun p => mkSet (fst p) (snd p) it true) ps) fm.
Proof. induction ps as [|[i j] ps IH]; intros fm; [reflexivity|]. cbn. destruct (setInteraction cutoff i j it true fm); auto. Qed.
Theorem C24_set_all : forall cutoff n it, exists fm, setAll cutoff it (new_fm n) = Some fm /\
  forall a b, (a < n)%nat -> (b < n)%nat -> getInteraction (Z.of_nat a) (Z.of_nat b) fm = it.
Proof.
  intros cutoff n it. unfold setAll. cbn [new_fm setNTypes fm_n]. rewrite set_pairs_settings.
  set (ps := flat_map (fun i => map (pair i) (seq i (n - i))) (seq 0 n)). set (ss := map _ ps).
  assert (P : forall i j, In (i, j) ps <-> (i <= j < n)%nat).
  { intros i j. unfold ps. rewrite in_flat_map. split.
    - intros (x & Hx & Hj). apply in_map_iff in Hj as (y & Ey & Hy). apply in_seq in Hx, Hy. injection Ey as -> ->. lia.
    - intros H. exists i. rewrite in_seq. split; [lia|]. apply in_map. apply in_seq. lia. }
  assert (HV : valid_types n ss).
  { intros s Hs. apply in_map_iff in Hs as ([i j] & <- & H). apply P in H. cbn. lia. }
  destruct (settings_spec cutoff n ss HV) as (fm & E & (W1 & W2 & _) & G & _). change (new_fm n) with (setNTypes n (mkFM 0 [] [] [] [] false)) in E. exists fm. split; [exact E|].
  intros a b Ha Hb. unfold getInteraction. rewrite W1.
  destruct (Z.leb_spec (Z.of_nat n) (Z.of_nat a)); [lia|]. destruct (Z.leb_spec (Z.of_nat n) (Z.of_nat b)); [lia|].
  destruct (Z.ltb_spec (Z.of_nat a) 0); [lia|]. destruct (Z.ltb_spec (Z.of_nat b) 0); [lia|]. cbn [orb]. rewrite !Nat2Z.id. fold (grid_at (fm_grid fm) a b).
  assert (X := G a b). inversion X as [ss0 a0 b0 N E0|p s q a0 b0 C N E0].
  - exfalso. subst. destruct (Nat.le_gt_cases a b).
    + apply (N (mkSet a b it true)); [|left; cbn; auto]. apply in_map_iff. exists (a, b). split; [reflexivity|]. apply P. lia.
    + apply (N (mkSet b a it true)); [|right; cbn; auto]. apply in_map_iff. exists (b, a). split; [reflexivity|]. apply P. lia.
  - assert (Hs : In s ss) by (rewrite <- E0; apply in_or_app; right; now left). apply in_map_iff in Hs as (pr & <- & _). reflexivity.
Qed.
Print Assumptions C24_set_all.

(* C24 fails for typesInteract: the type just beyond the last one is not rejected but read outside a vector. *)
Theorem C24_types_interact_refuted : forall n t, (t < n)%nat -> typesInteract (Z.of_nat t) (Z.of_nat n) (initialize (new_fm n)) = Outside.
Proof.
  intros n t Ht. destruct (initialize_spec (fun _ => 1) n (new_fm n) (new_well n)) as ((W1 & W2 & W3 & _) & _). cbv zeta in *. unfold typesInteract. rewrite W1.
  destruct (Z.eqb_spec (Z.of_nat t) (-1)); [lia|]. destruct (Z.eqb_spec (Z.of_nat n) (-1)); [lia|].
  destruct (Z.ltb_spec (Z.of_nat t) 0); [lia|]. destruct (Z.leb_spec (Z.of_nat n) (Z.of_nat t)); [lia|].
  destruct (Z.ltb_spec (Z.of_nat n) 0); [lia|]. destruct (Z.ltb_spec (Z.of_nat n) (Z.of_nat n)); [lia|]. cbn [orb]. rewrite !Nat2Z.id.
  destruct (nth_error (fm_grid (initialize (new_fm n))) t) as [row|] eqn:Er; [|reflexivity].
  destruct (nth_error row n) eqn:En; [|reflexivity]. assert (nth_error row n <> None) by congruence. apply nth_error_Some in H3. rewrite (W3 row) in H3 by now apply nth_error_In in Er. lia.
Qed.
Print Assumptions C24_types_interact_refuted.
(* C24 fails for the maximal cutoff, the list and the flag once an interaction is replaced: its cutoff stays (and none is ever
   reported below 1), it stays listed (so it is still evaluated), and after an earlier initialize the flag stays raised. *)
Theorem C24_replaced_refuted : exists cutoff ss fm fm', apply_settings cutoff [mkSet 0 0 (Some 7%nat) true] (new_fm 1) = Some fm /\
  apply_settings cutoff ss (initialize fm) = Some fm' /\ valid_types 1 ss /\
  getInteraction 0 0 (initialize fm') = None /\ getMaxCutoff 0 (initialize fm') = Some 5 /\ fm_list (initialize fm') = [7%nat] /\
  typeInteracts 0 (initialize fm') = Says false /\ interactingTypes (initialize fm') = true.
Proof.
  exists (fun _ => 5), [mkSet 0 0 None true]. eexists. eexists. split; [vm_compute; reflexivity|]. split; [vm_compute; reflexivity|].
  split; [intros s [<-|[]]; cbn; lia|]. repeat split; vm_compute; reflexivity.
Qed.
Print Assumptions C24_replaced_refuted.
Theorem C24_small_cutoff_refuted : exists cutoff fm, apply_settings cutoff [mkSet 0 0 (Some 7%nat) true] (new_fm 1) = Some fm /\
  cutoff 7%nat = 1#2 /\ getMaxCutoff 0 (initialize fm) = Some 1.
Proof. exists (fun _ => 1#2). eexists. split; [vm_compute; reflexivity|]. split; vm_compute; reflexivity. Qed.
Print Assumptions C24_small_cutoff_refuted.
