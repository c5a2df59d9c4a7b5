From Verif Require Import Lib Model_Handlers Spec_Handlers.
Local Open Scope list_scope.

Lemma put_spec {A} i (f : A -> A) : forall l, (i < length l)%nat -> exists l', put i f l = Some l' /\ length l' = length l /\
  (forall j, nth_error l' j = if (j =? i)%nat then option_map f (nth_error l j) else nth_error l j).
Proof.
  induction i as [|i IH]; intros [|a l] H; cbn in H; try lia.
  - exists (f a :: l). split; [reflexivity|]. split; [reflexivity|]. intros [|j]; reflexivity.
  - destruct (IH l) as (l' & E & L & S); [lia|]. exists (a :: l'). cbn [put]. rewrite E. split; [reflexivity|]. split; [cbn; lia|].
    intros [|j]; [reflexivity|]. cbn. apply S.
Qed.
Lemma put_none {A} i (f : A -> A) : forall l, (length l <= i)%nat -> put i f l = None.
Proof. induction i as [|i IH]; intros [|a l] H; cbn in *; try lia; try reflexivity. now rewrite IH by lia. Qed.

(* ---------- groups *)
Definition groups := list (Z * list Z).
Fixpoint offsets (off : nat) (gs : groups) : list nat :=
  match gs with [] => [] | (_, ns) :: gs' => off :: offsets (off + length ns) gs' end.
Definition gverlet (gs : groups) : list Z := concat (map snd gs).
Definition gpairs (gs : groups) : list (Z * Z) := flat_map (fun g => map (pair (fst g)) (snd g)) gs.
Definition glen (gs : groups) : nat := length (gverlet gs).

Lemma vl_neighbors_spec h ns : forall pre post, vl_neighbors h (length pre) (length ns) (pre ++ ns ++ post) = Some (map (pair h) ns).
Proof.
  induction ns as [|a ns IH]; intros pre post; [reflexivity|]. cbn [length vl_neighbors]. rewrite nth_error_app2 by lia. rewrite Nat.sub_diag. cbn [app nth_error].
  replace (pre ++ a :: ns ++ post) with ((pre ++ [a]) ++ ns ++ post) by now rewrite <- app_assoc.
  replace (S (length pre)) with (length (pre ++ [a])) by (rewrite app_length; cbn; lia). rewrite IH. reflexivity.
Qed.
Lemma vl_loop_spec gs : forall preF preV extra,
  vl_loop (length preF) (map fst gs) (preF ++ offsets (length preV) gs ++ (length preV + glen gs)%nat :: extra) (preV ++ gverlet gs) = Some (gpairs gs).
Proof.
  induction gs as [|[h ns] gs IH]; intros preF preV extra; [reflexivity|]. cbn [map fst vl_loop offsets].
  assert (E1 : glen ((h, ns) :: gs) = (length ns + glen gs)%nat) by (unfold glen, gverlet; cbn; rewrite app_length; reflexivity).
  assert (E2 : nth_error (offsets (length preV + length ns) gs ++ (length preV + glen ((h, ns) :: gs))%nat :: extra) 0 = Some (length preV + length ns)%nat).
  { destruct gs as [|[h2 ns2] gs]; cbn [offsets app nth_error]; [|reflexivity]. f_equal. rewrite E1. unfold glen, gverlet. cbn. lia. }
  set (X := (length preV :: _) ++ _).
  assert (Ea : nth_error (preF ++ X) (length preF) = Some (length preV)) by (rewrite nth_error_app2, Nat.sub_diag by lia; reflexivity).
  assert (Eb : nth_error (preF ++ X) (S (length preF)) = Some (length preV + length ns)%nat).
  { rewrite nth_error_app2 by lia. replace (S (length preF) - length preF)%nat with 1%nat by lia. exact E2. }
  rewrite Ea, Eb. unfold X. clear X Ea Eb E2. replace (length preV + length ns - length preV)%nat with (length ns) by lia.
  unfold gverlet at 1. cbn [map snd concat]. fold (gverlet gs). rewrite vl_neighbors_spec.
  specialize (IH (preF ++ [length preV]) (preV ++ ns) extra). rewrite !app_length in IH. cbn [length] in IH.
  replace (length preF + 1)%nat with (S (length preF)) in IH by lia.
  rewrite <- !app_assoc in IH. cbn [app] in IH. rewrite E1, Nat.add_assoc. change (gverlet ((h, ns) :: gs)) with (ns ++ gverlet gs). cbn [app]. rewrite IH. unfold gpairs. cbn [flat_map fst snd]. reflexivity.
Qed.
Lemma offsets_app off a b : offsets off (a ++ b) = offsets off a ++ offsets (off + glen a) b.
Proof.
  revert off. induction a as [|[h ns] a IH]; intros off; cbn; [now rewrite Nat.add_0_r|]. rewrite IH. f_equal. f_equal. f_equal.
  unfold glen, gverlet. cbn. rewrite app_length. lia.
Qed.
Lemma gverlet_app a b : gverlet (a ++ b) = gverlet a ++ gverlet b.
Proof. unfold gverlet. now rewrite map_app, concat_app. Qed.
Lemma gpairs_app a b : gpairs (a ++ b) = gpairs a ++ gpairs b.
Proof. unfold gpairs. now rewrite flat_map_app. Qed.

(* The list being filled. *)
Definition holds (v : vlist) (ps : list (Z * Z)) : Prop := exists gs,
  vl_first v = offsets 0 gs /\ vl_heads v = map fst gs /\ vl_verlet v = gverlet gs /\ gpairs gs = ps /\
  (gs = [] /\ vl_last v = (-1)%Z \/ exists g0 h ns, gs = g0 ++ [(h, ns)] /\ vl_last v = h).
Lemma holds_new : holds (mkVL [] [] [] (-1)) [].
Proof. exists []. cbn. repeat split. left. auto. Qed.
Lemma holds_add v ps a b : (a <> -1)%Z -> holds v ps -> holds (vl_add a b v) (ps ++ [(a, b)]).
Proof.
  intros Ha (gs & H1 & H2 & H3 & H4 & H5). unfold vl_add. destruct (Z.eqb_spec a (vl_last v)) as [E|E].
  - destruct H5 as [[_ H5]|(g0 & h & ns & -> & H5)]; [congruence|]. rewrite <- E in H5. subst h.
    exists (g0 ++ [(a, ns ++ [b])]). cbn [vl_first vl_heads vl_verlet vl_last]. rewrite H1, H2, H3, <- H4, !offsets_app, !map_app, !gverlet_app, !gpairs_app. cbn.
    split; [reflexivity|]. split; [reflexivity|]. split; [|split].
    + unfold gverlet. cbn. rewrite !app_nil_r, <- app_assoc. reflexivity.
    + unfold gpairs. cbn. rewrite !app_nil_r, map_app, app_assoc. reflexivity.
    + right. exists g0, a, (ns ++ [b]). split; [reflexivity|now symmetry].
  - exists (gs ++ [(a, [b])]). cbn [vl_first vl_heads vl_verlet vl_last]. rewrite H1, H2, H3, <- H4, !offsets_app, !map_app, !gverlet_app, !gpairs_app. cbn.
    split; [reflexivity|]. split; [reflexivity|]. split; [reflexivity|]. split; [reflexivity|]. right. eauto 6.
Qed.
Definition closed_holds (v : vlist) (ps : list (Z * Z)) : Prop := exists gs extra,
  vl_first v = offsets 0 gs ++ glen gs :: extra /\ vl_heads v = map fst gs /\ vl_verlet v = gverlet gs /\ gpairs gs = ps.
Lemma close_holds v ps : holds v ps -> closed_holds (vl_close v) ps.
Proof. intros (gs & H1 & H2 & H3 & H4 & _). exists gs, []. cbn. rewrite H1, H3. auto. Qed.
Lemma close_again v ps : closed_holds v ps -> closed_holds (vl_close v) ps.
Proof. intros (gs & ex & H1 & H2 & H3 & H4). exists gs, (ex ++ [length (gverlet gs)]). cbn. rewrite H1, H3, <- app_assoc. auto. Qed.
Lemma closed_visit v ps : closed_holds v ps -> vl_dolist v = Some ps.
Proof.
  intros (gs & ex & H1 & H2 & H3 & H4). unfold vl_dolist.
  assert (E := vl_loop_spec gs [] [] ex). cbn [length app] in E. cbn [Nat.add] in E. rewrite <- H1, <- H2, <- H3, H4 in E.
  destruct (vl_verlet v) eqn:Ev; [|exact E]. f_equal. rewrite <- H4. symmetry.
  assert (length (gpairs gs) = 0%nat); [|now apply length_zero_iff_nil].
  replace (length (gpairs gs)) with (glen gs); [unfold glen; now rewrite <- H3|]. clear. unfold glen, gverlet, gpairs. induction gs as [|[h ns] gs IH]; [reflexivity|].
  cbn. rewrite !app_length, map_length, IH. reflexivity.
Qed.

Lemma added_snoc l cs c : added l (cs ++ [c]) = match c with
  | AddPair a b l' => if (l' =? l)%nat then added l cs ++ [(a, b)] else added l cs | Close => added l cs | Clear => [] end.
Proof. unfold added. now rewrite fold_left_app. Qed.
Lemma calls_app {S} (do : call -> S -> option S) a : forall b s, calls do (a ++ b) s = match calls do a s with Some s1 => calls do b s1 | None => None end.
Proof. induction a as [|c a IH]; intros b s; [reflexivity|]. cbn. destruct (do c s); auto. Qed.

Definition only_adds (cs : list call) : Prop := forall c, In c cs -> exists a b l, c = AddPair a b l /\ (a <> -1)%Z.

Lemma verlet_adds cs : only_adds cs -> valid_lists cs -> exists s, calls verlet_call cs new_verlet = Some s /\ length (v_lists s) = 3%nat /\
  v_pairs s = length cs /\ forall l v, nth_error (v_lists s) l = Some v -> holds v (added l cs).
Proof.
  induction cs as [|c cs IH] using rev_ind; intros HA HV.
  - exists new_verlet. split; [reflexivity|]. split; [reflexivity|]. split; [reflexivity|]. intros [|[|[|l]]] v Hv; cbn in Hv; try (now destruct l); injection Hv as <-; apply holds_new.
  - destruct IH as (s & E & L & N & S). { intros c0 Hc. apply HA. apply in_or_app. now left. } { intros a b l Hl. apply (HV a b). apply in_or_app. now left. }
    destruct (HA c) as (a & b & l & -> & Ha); [apply in_or_app; right; now left|].
    assert (Hl : (l < 3)%nat) by (apply (HV a b); apply in_or_app; right; now left).
    rewrite calls_app, E. cbn [calls verlet_call]. destruct (put_spec l (vl_add a b) (v_lists s)) as (ls & E1 & L1 & S1); [lia|]. rewrite E1. cbn [option_map].
    eexists. split; [reflexivity|]. cbn [v_lists v_pairs]. split; [lia|]. split; [rewrite app_length; cbn; lia|].
    intros k v Hv. rewrite S1 in Hv. rewrite added_snoc. rewrite Nat.eqb_sym in Hv. destruct (Nat.eqb_spec l k) as [->|Hne]; [|now apply S].
    destruct (nth_error (v_lists s) k) as [v0|] eqn:E0; [|discriminate]. injection Hv as <-. apply holds_add; auto.
Qed.
Lemma verlet_total h : valid_lists h -> forall s, length (v_lists s) = 3%nat -> exists s', calls verlet_call h s = Some s' /\ length (v_lists s') = 3%nat.
Proof.
  induction h as [|c h IH]; intros HV s L.
  { exists s. split; [reflexivity|exact L]. }
  assert (HV' : valid_lists h) by (intros a b l Hl; apply (HV a b); now right).
  destruct c as [a b l| |]; cbn [calls verlet_call].
  - assert (Hl : (l < 3)%nat) by (apply (HV a b); now left). destruct (put_spec l (vl_add a b) (v_lists s)) as (ls & E1 & L1 & _); [lia|]. rewrite E1. cbn [option_map].
    apply IH; [exact HV'|]. cbn. lia.
  - apply IH; [exact HV'|]. cbn. now rewrite map_length.
  - apply IH; [exact HV'|reflexivity].
Qed.
Lemma verlet_closes n : forall s, exists s', calls verlet_call (repeat Close n) s = Some s' /\ v_pairs s' = v_pairs s /\ length (v_lists s') = length (v_lists s) /\
  forall l v' ps, (forall v, nth_error (v_lists s) l = Some v -> closed_holds v ps) -> nth_error (v_lists s') l = Some v' -> closed_holds v' ps.
Proof.
  induction n as [|n IH]; intros s.
  - exists s. cbn. auto.
  - cbn [repeat calls verlet_call]. destruct (IH (mkV (map vl_close (v_lists s)) (v_pairs s))) as (s' & E & N & L & S). exists s'. split; [exact E|]. split; [exact N|].
    split; [cbn in L; rewrite map_length in L; exact L|]. intros l v' ps H Hv. apply (S l v' ps); [|exact Hv]. intros v Hv0. cbn in Hv0. rewrite nth_error_map in Hv0.
    destruct (nth_error (v_lists s) l) as [v0|] eqn:E0; [|discriminate]. injection Hv0 as <-. apply close_again. now apply H.
Qed.

Lemma vec_calls cs : valid_lists cs -> exists s, calls vec_call cs new_vec = Some s /\ length s = 3%nat /\
  forall l v, nth_error s l = Some v -> v = flat_map (fun p => [fst p; snd p]) (added l cs).
Proof.
  induction cs as [|c cs IH] using rev_ind; intros HV.
  - exists new_vec. split; [reflexivity|]. split; [reflexivity|]. intros [|[|[|l]]] v Hv; cbn in Hv; try (now destruct l); now injection Hv as <-.
  - destruct IH as (s & E & L & S). { intros a b l Hl. apply (HV a b). apply in_or_app. now left. }
    rewrite calls_app, E. destruct c as [a b l| |]; cbn [calls vec_call].
    + assert (Hl : (l < 3)%nat) by (apply (HV a b); apply in_or_app; right; now left).
      destruct (put_spec l (fun v => v ++ [a; b]) s) as (ls & E1 & L1 & S1); [lia|]. rewrite E1. eexists. split; [reflexivity|]. split; [lia|].
      intros k v Hv. rewrite S1 in Hv. rewrite added_snoc. rewrite Nat.eqb_sym in Hv. destruct (Nat.eqb_spec l k) as [->|Hne]; [|now apply S].
      destruct (nth_error s k) as [v0|] eqn:E0; [|discriminate]. injection Hv as <-. rewrite flat_map_app, (S k v0 E0). reflexivity.
    + exists s. split; [reflexivity|]. split; [exact L|]. intros l v Hv. rewrite added_snoc. now apply S.
    + eexists. split; [reflexivity|]. split; [now rewrite map_length|]. intros l v Hv. rewrite nth_error_map in Hv. rewrite added_snoc. destruct (nth_error s l); [|discriminate]. now injection Hv as <-.
Qed.
Lemma vec_loop_spec ps : vec_loop (flat_map (fun p => [fst p; snd p]) ps) = Some ps.
Proof. induction ps as [|[a b] ps IH]; [reflexivity|]. cbn. now rewrite IH. Qed.
Lemma pairs_calls cs : valid_lists cs -> exists s, calls pairs_call cs new_pairs = Some s /\ length s = 3%nat /\
  forall l v, nth_error s l = Some v -> v = added l cs.
Proof.
  induction cs as [|c cs IH] using rev_ind; intros HV.
  - exists new_pairs. split; [reflexivity|]. split; [reflexivity|]. intros [|[|[|l]]] v Hv; cbn in Hv; try (now destruct l); now injection Hv as <-.
  - destruct IH as (s & E & L & S). { intros a b l Hl. apply (HV a b). apply in_or_app. now left. }
    rewrite calls_app, E. destruct c as [a b l| |]; cbn [calls pairs_call].
    + assert (Hl : (l < 3)%nat) by (apply (HV a b); apply in_or_app; right; now left).
      destruct (put_spec l (fun v => v ++ [(a, b)]) s) as (ls & E1 & L1 & S1); [lia|]. rewrite E1. eexists. split; [reflexivity|]. split; [lia|].
      intros k v Hv. rewrite S1 in Hv. rewrite added_snoc. rewrite Nat.eqb_sym in Hv. destruct (Nat.eqb_spec l k) as [->|Hne]; [|now apply S].
      destruct (nth_error s k) as [v0|] eqn:E0; [|discriminate]. injection Hv as <-. now rewrite (S k v0 E0).
    + exists s. split; [reflexivity|]. split; [exact L|]. intros l v Hv. rewrite added_snoc. now apply S.
    + eexists. split; [reflexivity|]. split; [now rewrite map_length|]. intros l v Hv. rewrite nth_error_map in Hv. rewrite added_snoc. destruct (nth_error s l); [|discriminate]. now injection Hv as <-.
Qed.
