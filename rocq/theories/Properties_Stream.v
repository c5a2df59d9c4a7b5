(* C71: the stream of new particles of a stream tunnel. C72: the intervals of the thermostat. *)
From Coq Require Import QArith Qround Qminmax Qabs List Bool ZArith Lia Lqa Setoid.
From Verif Require Import Lib Model_Mods Spec_Mods Proofs_Mods.
Import ListNotations.
Local Open Scope Q_scope.
Local Notation QN n := (inject_Z (Z.of_nat n)).

Lemma QN_S n : QN (S n) == QN n + 1.
Proof. rewrite Nat2Z.inj_succ. unfold Z.succ. rewrite inject_Z_plus. reflexivity. Qed.
Lemma fill_ok mn s f : 0 < s -> forall pos, pos - QN f * s <= mn ->
  exists l e, fill_down f mn s pos = Some (l, e) /\ (forall k x, nth_error l k = Some x -> x == pos - QN k * s /\ mn < x) /\ e == pos - QN (length l) * s /\ e <= mn.
Proof.
  intros Hs. induction f as [|f IH]; intros pos Hp.
  - cbn [fill_down]. destruct (Qltb_spec mn pos) as [H|H].
    + exfalso. change (QN 0) with 0 in Hp. lra.
    + exists [], pos. split; [reflexivity|]. split; [intros [|k] x E; discriminate|]. split; [cbn [length]; change (QN 0) with 0; ring|lra].
  - cbn [fill_down]. destruct (Qltb_spec mn pos) as [H|H].
    + rewrite QN_S in Hp. destruct (IH (pos - s)) as (l & e & E & A & B & C); [lra|]. rewrite E. exists (pos :: l), e. split; [reflexivity|]. split; [|split; [cbn [length]; rewrite QN_S, B; ring|exact C]].
      intros [|k] x Ex; cbn in Ex.
      * injection Ex as <-. split; [change (QN 0) with 0; ring|exact H].
      * destruct (A k x Ex) as [A1 A2]. split; [rewrite QN_S, A1; ring|exact A2].
    + exists [], pos. split; [reflexivity|]. split; [intros [|k] x E; discriminate|]. split; [cbn [length]; change (QN 0) with 0; ring|lra].
Qed.
Lemma rounds_ok mn s pos : 0 < s -> pos - QN (rounds mn s pos) * s <= mn.
Proof.
  intros Hs. unfold rounds. rewrite QN_S. set (r := (pos - mn) / s). assert (Er : pos - mn == r * s) by (unfold r; field; lra).
  assert (A : r <= inject_Z (Z.of_nat (Z.to_nat (Qceiling r)))).
  { apply Qle_trans with (inject_Z (Qceiling r)); [apply Qle_ceiling|]. rewrite <- Zle_Qle. lia. }
  set (z := inject_Z (Z.of_nat (Z.to_nat (Qceiling r)))) in *. clearbody z r. nra.
Qed.
Lemma fill_rounds mn s pos : 0 < s -> exists l e, fill_down (rounds mn s pos) mn s pos = Some (l, e) /\
  (forall k x, nth_error l k = Some x -> x == pos - QN k * s /\ mn < x) /\ e == pos - QN (length l) * s /\ e <= mn.
Proof. intros Hs. apply fill_ok; [exact Hs|now apply rounds_ok]. Qed.

(* what is known at any time: the columns are the points of the lattice that moves with the tunnel, in order, and next is the next one *)
Definition at_lattice (c0 s vel mn : Q) (st : stream) : Prop :=
  (forall k x t, nth_error (st_cols st) k = Some (x, t) -> x - vel * t == c0 - QN k * s /\ mn < x) /\ st_next st - vel * st_last st == c0 - QN (length (st_cols st)) * s.
Lemma stream_step_ok c0 mn s vel cut t st : 0 < s -> at_lattice c0 s vel mn st ->
  exists st' l, stream_step mn s vel cut t st = Some st' /\ at_lattice c0 s vel mn st' /\ st_cols st' = st_cols st ++ map (fun x => (x, t)) l /\
    (forall k, (length (st_cols st') <= k)%nat -> 0 <= cut -> c0 + vel * t - QN k * s <= mn + cut).
Proof.
  intros Hs [H1 H2]. unfold stream_step. set (cur := st_next st + vel * (t - st_last st)).
  assert (Ec : cur == c0 + vel * t - QN (length (st_cols st)) * s) by (unfold cur; lra). destruct (Qltb_spec (mn + cut) cur) as [H|H].
  - destruct (fill_rounds mn s cur Hs) as (l & e & E & A & B & C). rewrite E. eexists. exists l. split; [reflexivity|]. unfold at_lattice. cbn [st_cols st_next st_last].
    split; [split|split; [reflexivity|]].
    + intros k x u Ek. destruct (Nat.lt_ge_cases k (length (st_cols st))) as [L|L].
      * rewrite nth_error_app1 in Ek by exact L. exact (H1 k x u Ek).
      * rewrite nth_error_app2 in Ek by exact L. rewrite nth_error_map in Ek. destruct (nth_error l (k - length (st_cols st))) as [y|] eqn:Ey; [|discriminate]. injection Ek as -> <-.
        destruct (A _ _ Ey) as [A1 A2]. split; [|exact A2]. rewrite A1, Ec. replace k with (length (st_cols st) + (k - length (st_cols st)))%nat at 2 by lia. rewrite Nat2Z.inj_add, inject_Z_plus. ring.
    + rewrite B, Ec, app_length, map_length, Nat2Z.inj_add, inject_Z_plus. ring.
    + intros k Hk Hc. rewrite app_length, map_length in Hk. apply Qle_trans with e; [|lra]. rewrite B, Ec.
      assert (Hk' : inject_Z (Z.of_nat (length (st_cols st) + length l)) <= QN k) by (rewrite <- Zle_Qle; lia). rewrite Nat2Z.inj_add, inject_Z_plus in Hk'.
      set (a := QN (length (st_cols st))) in *. set (b := QN (length l)) in *. set (d := QN k) in *. clearbody a b d. nra.
  - exists st, []. split; [reflexivity|]. split; [split; assumption|]. split; [now rewrite app_nil_r|]. intros k Hk Hc. apply Qle_trans with cur; [|lra]. rewrite Ec.
    assert (Hk' : QN (length (st_cols st)) <= QN k) by (rewrite <- Zle_Qle; lia). set (a := QN (length (st_cols st))) in *. set (d := QN k) in *. clearbody a d. nra.
Qed.
Lemma stream_run_ok c0 mn s vel cut times : 0 < s -> forall st, at_lattice c0 s vel mn st ->
  exists st' new, stream_run mn s vel cut times st = Some st' /\ at_lattice c0 s vel mn st' /\ st_cols st' = st_cols st ++ new /\ (forall x t, In (x, t) new -> In t times).
Proof.
  intros Hs. induction times as [|t ts IH]; intros st Hst.
  - exists st, []. split; [reflexivity|]. split; [exact Hst|]. split; [now rewrite app_nil_r|]. intros x t [].
  - cbn [stream_run]. destruct (stream_step_ok c0 mn s vel cut t st Hs Hst) as (st1 & l & E & A & B & _). rewrite E. destruct (IH st1 A) as (st2 & new & E2 & A2 & B2 & C2).
    exists st2, (map (fun x => (x, t)) l ++ new). split; [exact E2|]. split; [exact A2|]. split; [rewrite B2, B, app_assoc; reflexivity|].
    intros x u Hx. apply in_app_or in Hx as [Hx|Hx]; [|right; exact (C2 x u Hx)]. apply in_map_iff in Hx as (y & Ey & _). injection Ey as _ <-. now left.
Qed.
Lemma stream_run_app mn s vel cut a b : forall st, stream_run mn s vel cut (a ++ b) st = match stream_run mn s vel cut a st with None => None | Some st' => stream_run mn s vel cut b st' end.
Proof. induction a as [|t a IH]; intros st; [reflexivity|]. cbn [app stream_run]. destruct (stream_step mn s vel cut t st); [apply IH|reflexivity]. Qed.
Lemma start_lattice mn s vel : at_lattice (mn - (1#2) * s) s vel mn (stream_start mn s []).
Proof. split; [intros [|k] x t E; discriminate|]. cbn. change (QN 0) with 0. ring. Qed.

(* ---------- C71. In a run, whatever the times of the steps: the k-th column of new particles is made where the k-th point of one lattice with the given spacing, which moves
   with the velocity of the tunnel, is at that time, and inside the box. So at any later time the columns that moved with the tunnel are a lattice without gaps or repetitions. *)
Theorem C71_columns_partial mn s vel cut times : 0 < s ->
  exists st, stream_run mn s vel cut times (stream_start mn s []) = Some st /\
    (forall k x t, nth_error (st_cols st) k = Some (x, t) -> In t times /\ mn < x /\ forall now, x + vel * (now - t) == (mn - (1#2) * s) + vel * now - inject_Z (Z.of_nat k) * s) /\
    (forall k x t x' t' now, nth_error (st_cols st) k = Some (x, t) -> nth_error (st_cols st) (S k) = Some (x', t') -> (x + vel * (now - t)) - (x' + vel * (now - t')) == s).
Proof.
  intros Hs. destruct (stream_run_ok (mn - (1#2) * s) mn s vel cut times Hs _ (start_lattice mn s vel)) as (st & new & E & [A _] & B & C). exists st. split; [exact E|].
  assert (A' : forall k x t, nth_error (st_cols st) k = Some (x, t) -> forall now, x + vel * (now - t) == (mn - (1#2) * s) + vel * now - inject_Z (Z.of_nat k) * s).
  { intros k x t Ek now. destruct (A k x t Ek) as [A1 _]. lra. }
  split.
  - intros k x t Ek. destruct (A k x t Ek) as [_ A2]. split; [|split; [exact A2|now apply A']]. apply (C x t). rewrite B in Ek. cbn in Ek. eapply nth_error_In, Ek.
  - intros k x t x' t' now E1 E2. rewrite (A' _ _ _ E1 now), (A' _ _ _ E2 now), QN_S. ring.
Qed.
Print Assumptions C71_columns_partial.
(* No column comes too late: after each call, every point of the lattice that is more than cut inside has its column; and the columns that a call adds were not further
   inside than that at the call before. *)
Theorem C71_in_time_partial mn s vel cut times t : 0 < s -> 0 <= cut ->
  exists st, stream_run mn s vel cut (times ++ [t]) (stream_start mn s []) = Some st /\
    (forall k, mn + cut < (mn - (1#2) * s) + vel * t - inject_Z (Z.of_nat k) * s -> exists x u, nth_error (st_cols st) k = Some (x, u)) /\
    (forall u, exists st' new, stream_run mn s vel cut (times ++ [t; u]) (stream_start mn s []) = Some st' /\ st_cols st' = st_cols st ++ map (fun x => (x, u)) new /\
       forall x, In x new -> mn < x <= mn + cut + vel * (u - t)).
Proof.
  intros Hs Hc. set (c0 := mn - (1#2) * s).
  destruct (stream_run_ok c0 mn s vel cut times Hs _ (start_lattice mn s vel)) as (st0 & new0 & E0 & A0 & _).
  destruct (stream_step_ok c0 mn s vel cut t st0 Hs A0) as (st & l & E & A & B & C). exists st. rewrite stream_run_app, E0. cbn [stream_run]. rewrite E. split; [reflexivity|]. split.
  - intros k Hk. destruct (nth_error (st_cols st) k) as [[x u]|] eqn:Ek; [eauto|]. apply nth_error_None in Ek. specialize (C k Ek Hc). lra.
  - intros u. destruct (stream_step_ok c0 mn s vel cut u st Hs A) as (st' & l' & E' & A' & B' & _). exists st', l'. rewrite stream_run_app, E0. cbn [stream_run]. rewrite E, E'. split; [reflexivity|]. split; [exact B'|].
    intros x Hx. apply In_nth_error in Hx as [j Hj]. assert (Hk : nth_error (st_cols st') (length (st_cols st) + j) = Some (x, u)).
    { rewrite B', nth_error_app2 by lia. replace (length (st_cols st) + j - length (st_cols st))%nat with j by lia. rewrite nth_error_map, Hj. reflexivity. }
    destruct (proj1 A' _ _ _ Hk) as [A1 A2]. split; [exact A2|]. specialize (C (length (st_cols st) + j)%nat ltac:(lia) Hc). lra.
Qed.
Print Assumptions C71_in_time_partial.
Example C71_columns_case : exists st, stream_run 0 1 1 (1#2) [1#2; 1; 5#4; 5] (stream_start 0 1 []) = Some st /\ map (fun c => (Qred (fst c), Qred (snd c))) (st_cols st) = [(3#4, 5#4); (7#2, 5); (5#2, 5); (3#2, 5); (1#2, 5)].
Proof. eexists. split; [vm_compute; reflexivity|]. vm_compute. reflexivity. Qed.

(* The rows of a column on a processor that extends from pmn to pmx are exactly the points of the common lattice in it, from above. *)
Theorem C71_rows_partial smn pmn pmx s : 0 < s -> (1#2) * s <= pmx - smn ->
  exists l, stream_rows smn pmn pmx s = Some l /\ (forall k x y, nth_error l k = Some x -> nth_error l (S k) = Some y -> y == x - s) /\
    forall x, (exists y, In y l /\ y == x) <-> exists k : Z, x == smn + (inject_Z k + (1#2)) * s /\ pmn < x /\ x <= pmx.
Proof.
  intros Hs Hw. unfold stream_rows. set (r := (pmx - smn - (1#2) * s) / s). assert (Er : pmx - smn - (1#2) * s == r * s) by (unfold r; field; lra).
  assert (R0 : 0 <= r) by (clearbody r; nra). assert (En : Qtrunc0 r = Qfloor r) by (unfold Qtrunc0; destruct (Qltb_spec r 0); [exfalso; lra|reflexivity]). rewrite En. set (n := Qfloor r).
  assert (N1 : inject_Z n <= r) by apply Qfloor_le. assert (N2 : r < inject_Z n + 1) by (assert (X := Qlt_floor r); unfold Z.succ in X; rewrite inject_Z_plus in X; exact X).
  destruct (fill_rounds pmn s (smn + (inject_Z n + (1#2)) * s) Hs) as (l & e & E & A & B & C). rewrite E. exists l. split; [reflexivity|]. split.
  - intros k x y E1 E2. destruct (A _ _ E1) as [-> _], (A _ _ E2) as [-> _]. rewrite QN_S. ring.
  - intros x. split.
    + intros (y & Hy & Eyx). apply In_nth_error in Hy as [k Hk]. destruct (A _ _ Hk) as [A1 A2]. exists (n - Z.of_nat k)%Z. rewrite <- Eyx. split; [|split; [exact A2|]].
      * rewrite A1. unfold Zminus. rewrite inject_Z_plus, inject_Z_opp. ring.
      * rewrite A1. assert (0 <= QN k) by (change 0 with (inject_Z 0); rewrite <- Zle_Qle; lia). set (kk := QN k) in *. set (nn := inject_Z n) in *. clearbody kk nn r. nra.
    + intros (k & Ex & X1 & X2). assert (Kn : (k <= n)%Z).
      { destruct (Z_le_gt_dec k n) as [H|H]; [exact H|exfalso]. assert (H' : inject_Z (n + 1) <= inject_Z k) by (rewrite <- Zle_Qle; lia). rewrite inject_Z_plus in H'. change (inject_Z 1) with 1 in H'.
        set (kk := inject_Z k) in *. set (nn := inject_Z n) in *. clearbody kk nn r. nra. }
      set (j := Z.to_nat (n - k)). assert (Ej : QN j == inject_Z n - inject_Z k) by (unfold j; rewrite Z2Nat.id by lia; unfold Zminus; rewrite inject_Z_plus, inject_Z_opp; ring).
      assert (Lj : (j < length l)%nat).
      { apply Nat.lt_nge. intros L. assert (L' : QN (length l) <= QN j) by (rewrite <- Zle_Qle; lia). rewrite Ej in L'.
        set (a := QN (length l)) in *. set (kk := inject_Z k) in *. set (nn := inject_Z n) in *. clearbody a kk nn r. nra. }
      destruct (nth_error l j) as [y|] eqn:Ey; [|apply nth_error_None in Ey; lia]. exists y. split; [eapply nth_error_In, Ey|]. destruct (A _ _ Ey) as [-> _]. rewrite Ej, Ex. ring.
Qed.
Print Assumptions C71_rows_partial.
Example C71_rows_case : exists l, stream_rows 0 0 3 (4#5) = Some l /\ map Qred l = [14#5; 2; 6#5; 2#5].
Proof. eexists. split; [vm_compute; reflexivity|]. vm_compute. reflexivity. Qed.
(* Neighbouring processors share the rows without gaps or repetitions. *)
Theorem C71_processors_partial smn a b c s : 0 < s -> (1#2) * s <= b - smn -> a <= b -> b <= c ->
  exists l1 l2 l, stream_rows smn a b s = Some l1 /\ stream_rows smn b c s = Some l2 /\ stream_rows smn a c s = Some l /\
    forall x, ((exists y, In y l /\ y == x) <-> (exists y, In y l1 /\ y == x) \/ (exists y, In y l2 /\ y == x)) /\ ~ ((exists y, In y l1 /\ y == x) /\ (exists y, In y l2 /\ y == x)).
Proof.
  intros Hs Hb Hab Hbc. destruct (C71_rows_partial smn a b s Hs Hb) as (l1 & E1 & _ & A1). destruct (C71_rows_partial smn b c s Hs ltac:(lra)) as (l2 & E2 & _ & A2).
  destruct (C71_rows_partial smn a c s Hs ltac:(lra)) as (l & E & _ & A). exists l1, l2, l. split; [exact E1|]. split; [exact E2|]. split; [exact E|]. intros x. rewrite A, A1, A2. split.
  - split.
    + intros (k & Ek & H1 & H2). destruct (Qlt_le_dec b x); [right|left]; exists k; repeat split; assumption || lra.
    + intros [(k & Ek & H1 & H2)|(k & Ek & H1 & H2)]; exists k; repeat split; assumption || lra.
  - intros [(k & _ & _ & H) (k' & _ & H' & _)]. lra.
Qed.
Print Assumptions C71_processors_partial.
Example C71_processors_case : exists l1 l2 l, stream_rows 0 0 3 1 = Some l1 /\ stream_rows 0 3 5 1 = Some l2 /\ stream_rows 0 0 5 1 = Some l /\ map Qred l = map Qred (l2 ++ l1) /\ map Qred l = [9#2; 7#2; 5#2; 3#2; 1#2].
Proof. do 3 eexists. split; [vm_compute; reflexivity|]. split; [vm_compute; reflexivity|]. split; [vm_compute; reflexivity|]. vm_compute. split; reflexivity. Qed.

(* A processor at the lower end that is thinner than half the spacing makes a row outside of itself, where its neighbour makes the same row again. *)
Theorem C71_thin_processor_refuted : exists l1 l2, stream_rows 0 0 (2#5) 1 = Some l1 /\ stream_rows 0 (2#5) 2 1 = Some l2 /\ map Qred l1 = [1#2] /\ map Qred l2 = [3#2; 1#2].
Proof. do 2 eexists. split; [vm_compute; reflexivity|]. split; [vm_compute; reflexivity|]. vm_compute. split; reflexivity. Qed.
Print Assumptions C71_thin_processor_refuted.
(* A second run starts the lattice again, whatever the first has left: the columns that have moved on to mn + 1/4 and mn + 5/4 at the end of the first run are followed, in
   the second, by one at a distance of 3/4 instead of 1. *)
Theorem C71_second_run_refuted : exists st1 st2, stream_run 0 1 1 0 [7#4] (stream_start 0 1 []) = Some st1 /\ map (fun c => (Qred (fst c), snd c)) (st_cols st1) = [(5#4, 7#4); (1#4, 7#4)] /\
  stream_run 0 1 1 0 [3#4] (stream_start 0 1 (st_cols st1)) = Some st2 /\ map (fun c => Qred (fst c)) (st_cols st2) = [5#4; 1#4; 1#4] /\ (1#4) + 1 * (3#4) - (1#4) == 3#4.
Proof. do 2 eexists. split; [vm_compute; reflexivity|]. split; [vm_compute; reflexivity|]. split; [vm_compute; reflexivity|]. vm_compute. split; reflexivity. Qed.
Print Assumptions C71_second_run_refuted.
(* A tunnel that is constructed with radii (not from a file) keeps the default spacing, whatever the radii: large particles are created on top of each other. *)
Theorem C71_spacing_refuted min_r max_r : spacing_constructed min_r max_r == 5#100 /\ (1#10 <= min_r -> spacing_constructed min_r max_r < min_r).
Proof. unfold spacing_constructed. split; [reflexivity|intros; lra]. Qed.
Print Assumptions C71_spacing_refuted.

(* ---------- C72. The thermostat. A call acts if it changes the force: noise and drag are added. *)
Definition call_time (c : Q * (vec * vec * vec)) : Q := fst c.
Fixpoint acting (delay last : Q) (calls : list (Q * (vec * vec * vec))) : list bool :=
  match calls with [] => [] | c :: cs => if Qltb (fst c - last) delay then false :: acting delay last cs else true :: acting delay (fst c) cs end.
Definition result (act : bool) (c : Q * (vec * vec * vec)) (f : vec) : Prop :=
  let '(_, (noise, drag, f0)) := c in forall d, f d == if act then f0 d + noise d - drag d else f0 d.
Lemma thermo_acting delay temp calls : 0 < temp -> forall last, length (acting delay last calls) = length calls /\ length (thermo_run delay temp last calls) = length calls /\
  forall i c b f, nth_error calls i = Some c -> nth_error (acting delay last calls) i = Some b -> nth_error (thermo_run delay temp last calls) i = Some f -> result b c f.
Proof.
  intros Ht. assert (Et : Qle_bool temp 0 = false) by (destruct (Qle_bool temp 0) eqn:E; [apply Qle_bool_iff in E; exfalso; lra|reflexivity]).
  induction calls as [|[t [[no dr] f0]] cs IH]; intros last; [repeat split; intros [|i] c b f H; discriminate|].
  cbn [acting thermo_run fst]. unfold thermo. rewrite Et, orb_false_r. destruct (Qltb (t - last) delay).
  - destruct (IH last) as (A & B & C). split; [cbn; congruence|]. split; [cbn; congruence|]. intros [|i] c b f H1 H2 H3; cbn in H1, H2, H3; [injection H1 as <-; injection H2 as <-; injection H3 as <-; intros d; reflexivity|exact (C i c b f H1 H2 H3)].
  - destruct (IH t) as (A & B & C). split; [cbn; congruence|]. split; [cbn; congruence|]. intros [|i] c b f H1 H2 H3; cbn in H1, H2, H3; [injection H1 as <-; injection H2 as <-; injection H3 as <-; intros d; reflexivity|exact (C i c b f H1 H2 H3)].
Qed.
Fixpoint in_order (l : list Q) : Prop := match l with [] => True | a :: t => (forall b, In b t -> a <= b) /\ in_order t end.
Lemma acting_spec delay calls : forall last, in_order (last :: map call_time calls) -> forall i c, nth_error calls i = Some c ->
  (nth_error (acting delay last calls) i = Some true -> delay <= call_time c - last /\ forall j c', (j < i)%nat -> nth_error calls j = Some c' -> nth_error (acting delay last calls) j = Some true -> delay <= call_time c - call_time c') /\
  (nth_error (acting delay last calls) i = Some false -> call_time c - last < delay \/ exists j c', (j < i)%nat /\ nth_error calls j = Some c' /\ nth_error (acting delay last calls) j = Some true /\ call_time c - call_time c' < delay).
Proof.
  induction calls as [|c0 cs IH]; intros last Ho i c Hi; [destruct i; discriminate|]. cbn [acting]. change (fst c0) with (call_time c0).
  cbn [in_order map] in Ho. destruct Ho as (O1 & O2 & O3). destruct (Qltb_spec (call_time c0 - last) delay) as [H|H].
  - destruct i as [|i]; cbn [nth_error] in *.
    + injection Hi as <-. split; [discriminate|]. intros _. now left.
    + assert (Ho' : in_order (last :: map call_time cs)) by (split; [intros b Hb; apply O1; now right|exact O3]). destruct (IH last Ho' i c Hi) as [A B]. split.
      * intros E. destruct (A E) as [A1 A2]. split; [exact A1|]. intros [|j] c' Hj Ec' Ea; cbn [nth_error] in Ec', Ea; [discriminate|]. apply (A2 j c'); [lia|exact Ec'|exact Ea].
      * intros E. destruct (B E) as [B1|(j & c' & J1 & J2 & J3 & J4)]; [now left|right]. exists (S j), c'. cbn [nth_error]. repeat split; try assumption. lia.
  - destruct i as [|i]; cbn [nth_error] in *.
    + injection Hi as <-. split; [|discriminate]. intros _. split; [lra|]. intros j c' Hj. lia.
    + assert (Ho' : in_order (call_time c0 :: map call_time cs)) by (split; assumption). destruct (IH (call_time c0) Ho' i c Hi) as [A B].
      assert (O10 : last <= call_time c0) by (apply O1; now left). split.
      * intros E. destruct (A E) as [A1 A2]. split; [lra|]. intros [|j] c' Hj Ec' Ea; cbn [nth_error] in Ec', Ea; [injection Ec' as <-; exact A1|]. apply (A2 j c'); [lia|exact Ec'|exact Ea].
      * intros E. right. destruct (B E) as [B1|(j & c' & J1 & J2 & J3 & J4)]; [exists 0%nat, c0; cbn [nth_error]; repeat split; try assumption; lia|]. exists (S j), c'. cbn [nth_error]. repeat split; try assumption. lia.
Qed.
(* In the first run: a thermostat with a positive temperature acts in a call exactly if the delay has passed since the start and since every call in which it acted before.
   An acting call adds noise and takes the drag away, the other calls change nothing. *)
Theorem C72_interval_partial delay temp calls : 0 < temp -> in_order (0 :: map call_time calls) ->
  exists acts, length acts = length calls /\ length (thermo_run delay temp 0 calls) = length calls /\
    (forall i c f, nth_error calls i = Some c -> nth_error (thermo_run delay temp 0 calls) i = Some f ->
       (nth_error acts i = Some true /\ (let '(_, (noise, drag, f0)) := c in forall d, f d == f0 d + noise d - drag d)) \/ (nth_error acts i = Some false /\ (let '(_, (noise, drag, f0)) := c in forall d, f d == f0 d))) /\
    (forall i c, nth_error calls i = Some c ->
       (nth_error acts i = Some true <-> delay <= call_time c /\ forall j c', (j < i)%nat -> nth_error calls j = Some c' -> nth_error acts j = Some true -> delay <= call_time c - call_time c')).
Proof.
  intros Ht Ho. exists (acting delay 0 calls). destruct (thermo_acting delay temp calls Ht 0) as (A & B & C). split; [exact A|]. split; [exact B|]. split.
  - intros i c f Hc Hf. destruct (nth_error (acting delay 0 calls) i) as [b|] eqn:Eb; [|apply nth_error_None in Eb; assert (Hl : (i < length calls)%nat) by (apply nth_error_Some; congruence); lia].
    specialize (C i c b f Hc Eb Hf). destruct c as [t [[no dr] f0]]. cbn in C. destruct b; [left|right]; split; try reflexivity; exact C.
  - intros i c Hc. destruct (acting_spec delay calls 0 Ho i c Hc) as [S1 S2]. split.
    + intros E. destruct (S1 E) as [S3 S4]. split; [lra|exact S4].
    + intros [D1 D2]. destruct (nth_error (acting delay 0 calls) i) as [[|]|] eqn:Eb; [reflexivity| |apply nth_error_None in Eb; assert (Hl : (i < length calls)%nat) by (apply nth_error_Some; congruence); lia].
      exfalso. destruct (S2 eq_refl) as [H|(j & c' & J1 & J2 & J3 & J4)]; [lra|]. specialize (D2 j c' J1 J2 J3). lra.
Qed.
Print Assumptions C72_interval_partial.
Definition call1 (t : Q) : Q * (vec * vec * vec) := (t, (fun _ => 7, fun _ => 2, fun _ => 1)).
Example C72_interval_case : map (fun f : vec => Qred (f 0%nat)) (thermo_run (1#4) 1 0 (map call1 [1#10; 2#10; 3#10; 4#10; 5#10; 6#10; 9#10])) = [1; 1; 6; 1; 1; 6; 6].
Proof. vm_compute. reflexivity. Qed.
(* A temperature of zero (or less) switches it off. *)
Theorem C72_zero_temperature delay temp last calls : temp <= 0 -> thermo_run delay temp last calls = map (fun c => snd (snd c)) calls.
Proof.
  intros Ht. assert (Et : Qle_bool temp 0 = true) by now apply Qle_bool_iff. revert last. induction calls as [|[t [[no dr] f0]] cs IH]; intros last; [reflexivity|].
  cbn [thermo_run map snd]. unfold thermo. rewrite Et, orb_true_r, IH. reflexivity.
Qed.
Print Assumptions C72_zero_temperature.
Example C72_zero_temperature_case : map (fun f : vec => f 0%nat) (thermo_run (1#4) 0 0 (map call1 [1; 2; 3])) = [1; 1; 1].
Proof. vm_compute. reflexivity. Qed.
(* In a second run the elapsed time starts at zero again but the time of the last action is kept: the thermostat is off for as long as the first run took. *)
Theorem C72_second_run_refuted delay temp last calls : (forall c, In c calls -> call_time c < last + delay) -> thermo_run delay temp last calls = map (fun c => snd (snd c)) calls.
Proof.
  induction calls as [|[t [[no dr] f0]] cs IH]; intros H; [reflexivity|]. cbn [thermo_run map snd]. unfold thermo. assert (H0 := H _ (or_introl eq_refl)). cbn in H0.
  destruct (Qltb_spec (t - last) delay) as [L|L]; [|exfalso; lra]. cbn [orb]. rewrite IH by (intros; apply H; now right). reflexivity.
Qed.
Print Assumptions C72_second_run_refuted.
Example C72_second_run_case : map (fun f : vec => f 0%nat) (thermo_run (1#4) 1 10 (map call1 [1; 2; 3; 9])) = [1; 1; 1; 1].
Proof. vm_compute. reflexivity. Qed.
