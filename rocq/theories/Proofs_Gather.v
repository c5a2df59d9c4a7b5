(* mpi_reduce0_position_data under every schedule: C54. *)
From Coq Require Import String.
From Verif Require Import Lib Model_Geometry Model_Store Model_Buffer Model_Topology Model_Messages Proofs_Messages1.
Local Open Scope list_scope.

Lemma firstn_succ {A} (l : list A) : forall i a, nth_error l i = Some a -> firstn (S i) l = firstn i l ++ [a].
Proof. induction l as [|b l IH]; intros [|i] a E; try discriminate; [cbn in *; congruence|]. cbn in E. cbn [firstn app]. f_equal. now apply IH. Qed.
Lemma skipn_cons {A} (l : list A) : forall i a, nth_error l i = Some a -> skipn i l = a :: skipn (S i) l.
Proof. induction l as [|b l IH]; intros [|i] a E; try discriminate; cbn in *; [congruence|]. now apply IH. Qed.

Section G.
Variable eager : nat -> nat -> nat -> nat -> bool.
Variables (d0 : list Q) (rest : list (list Q)).
Local Notation P := (S (length rest)).
Local Notation step := (pstep eager (gnext P)).

(* One of the other processors. *)
Inductive other (d : list Q) : proc gpayload gstate -> nat -> Prop :=
| oA : other d (mkProc (GSendSize d) [] []) 4
| oB : other d (mkProc (GWaitSize d) [(0%nat, 0%nat, GN (length d))] []) 3
| oC : other d (mkProc (GSendData d) [(0%nat, 0%nat, GN (length d))] []) 2
| oD : d <> [] -> other d (mkProc (GWaitData d) [(0%nat, 0%nat, GN (length d)); (0%nat, 0%nat, GD d)] []) 1
| oE : d = [] -> other d (mkProc (GDone d) [(0%nat, 0%nat, GN (length d))] []) 0
| oF : d <> [] -> other d (mkProc (GDone d) [(0%nat, 0%nat, GN (length d)); (0%nat, 0%nat, GD d)] []) 0.

Definition slog (i : nat) : list (nat * nat) := map (fun j => (j, 0%nat)) (seq 1 i).
Definition dlog (i : nat) : list (nat * nat) :=
  map (fun j => (j, 0%nat)) (filter (fun j => match nth_error rest (j - 1) with Some (_ :: _) => true | _ => false end) (seq 1 i)).
Inductive root : proc gpayload gstate -> nat -> Prop :=
| rS i : (i <= length rest)%nat ->
    root (mkProc (GSize (S i) (map (@length Q) (firstn i rest)) d0) [] (slog i)) (3 + 2 * length rest - i)
| rD i : (i <= length rest)%nat ->
    root (mkProc (GData (S i) (map (@length Q) (skipn i rest)) (d0 ++ concat (firstn i rest))) [] (slog (length rest) ++ dlog i)) (2 + length rest - i)
| rE : root (mkProc (GDone (d0 ++ concat rest)) [] (slog (length rest) ++ dlog (length rest))) 0.

(* All together; the number bounds the steps to come. *)
Definition good (ps : list (proc gpayload gstate)) (n : nat) : Prop :=
  exists r os nr ns, ps = r :: os /\ root r nr /\ length os = length rest /\ length ns = length rest /\
    (forall i d o m, nth_error rest i = Some d -> nth_error os i = Some o -> nth_error ns i = Some m -> other d o m) /\
    n = (nr + list_sum ns)%nat.

Lemma received_seq f k : forall n a, received k 0 (map (fun j => (j, 0%nat)) (filter f (seq a n))) =
  if (a <=? k)%nat && (k <? a + n)%nat && f k then 1%nat else 0%nat.
Proof.
  induction n as [|n IH]; intros a; cbn [seq filter].
  - unfold received. cbn [map filter length]. destruct (Nat.leb_spec a k), (Nat.ltb_spec k (a + 0)); cbn [andb]; try lia; reflexivity.
  - assert (H : received k 0 (map (fun j : nat => (j, 0%nat)) (if f a then a :: filter f (seq (S a) n) else filter f (seq (S a) n))) =
       ((if (a =? k)%nat && f a then 1 else 0) + received k 0 (map (fun j => (j, 0%nat)) (filter f (seq (S a) n))))%nat).
    { destruct (f a); [|now rewrite andb_false_r]. cbn [map]. unfold received at 1. cbn [filter fst snd]. rewrite andb_true_r. cbn [Nat.eqb]. rewrite andb_true_r.
      destruct (a =? k)%nat; reflexivity. }
    rewrite H, IH. clear H. destruct (Nat.eqb_spec a k) as [Heq|Hne]; [subst k|]; cbn [andb].
    + destruct (Nat.leb_spec a a), (Nat.ltb_spec a (a + S n)), (Nat.leb_spec (S a) a); try lia. cbn [andb]. destruct (f a); reflexivity.
    + destruct (Nat.leb_spec (S a) k), (Nat.ltb_spec k (S a + n)), (Nat.leb_spec a k), (Nat.ltb_spec k (a + S n)); try lia; reflexivity.
Qed.
Lemma received_slog k i : received k 0 (slog i) = if (1 <=? k)%nat && (k <=? i)%nat then 1%nat else 0%nat.
Proof.
  unfold slog. assert (E : seq 1 i = filter (fun _ => true) (seq 1 i)). { generalize (seq 1 i). induction l; cbn; congruence. }
  rewrite E, (received_seq (fun _ => true)). rewrite andb_true_r. f_equal. destruct (Nat.leb_spec 1 k), (Nat.ltb_spec k (1 + i)), (Nat.leb_spec k i); try lia; reflexivity.
Qed.
Definition full (k : nat) : bool := match nth_error rest (k - 1) with Some (_ :: _) => true | _ => false end.
Lemma received_dlog k i : received k 0 (dlog i) = if (1 <=? k)%nat && (k <=? i)%nat && full k then 1%nat else 0%nat.
Proof.
  unfold dlog. rewrite received_seq. unfold full. destruct (Nat.leb_spec 1 k), (Nat.ltb_spec k (1 + i)), (Nat.leb_spec k i); try lia; reflexivity.
Qed.

Lemma update_sum i : forall ns m m', nth_error ns i = Some m -> (m' < m)%nat -> (list_sum (update i m' ns) < list_sum ns)%nat.
Proof. unfold list_sum. induction i as [|i IH]; intros [|a ns] m m' E H; cbn in *; try discriminate; [injection E as ->; lia|]. specialize (IH _ _ _ E H). lia. Qed.

Lemma other_update (os : list (proc gpayload gstate)) ns i d o' m' : length os = length rest -> length ns = length rest ->
  (forall i d o m, nth_error rest i = Some d -> nth_error os i = Some o -> nth_error ns i = Some m -> other d o m) ->
  nth_error rest i = Some d -> other d o' m' ->
  length (update i o' os) = length rest /\ length (update i m' ns) = length rest /\
  (forall j d o m, nth_error rest j = Some d -> nth_error (update i o' os) j = Some o -> nth_error (update i m' ns) j = Some m -> other d o m).
Proof.
  intros L1 L2 H Hd Ho. rewrite !update_len. split; [exact L1|]. split; [exact L2|]. intros j dj o m H1 H2 H3.
  destruct (Nat.eq_dec j i) as [->|Hne].
  - assert (i < length rest)%nat by (apply nth_error_Some; congruence). rewrite update_same in H2 by lia. rewrite update_same in H3 by lia. injection H2 as <-. injection H3 as <-.
    assert (d = dj) by congruence. now subst.
  - rewrite update_other in H2 by auto. rewrite update_other in H3 by auto. eauto.
Qed.

Lemma good_step k ps ps' n : good ps n -> step k ps = Some ps' -> exists n', good ps' n' /\ (n' < n)%nat.
Proof.
  intros (r & os & nr & ns & -> & Hr & L1 & L2 & Ho & ->) E. destruct k as [|i].
  - unfold pstep in E. cbn [nth_error] in E. inversion Hr as [i Hi E1 E2|i Hi E1 E2|E1 E2]; subst r; cbn [pr_state gnext pr_sent pr_recv] in E.
    + destruct (Nat.ltb_spec (S i) P) as [Hlt|Hge].
      * destruct (nth_error rest i) as [d|] eqn:Ed. 2:{ apply nth_error_None in Ed. lia. }
        cbn [nth_error] in E. destruct (nth_error os i) as [o|] eqn:Eo; [|discriminate].
        destruct (nth_error ns i) as [m|] eqn:Em. 2:{ apply nth_error_None in Em. apply nth_error_Some in Hlt || idtac. assert (i < length rest)%nat by lia. lia. }
        pose proof (Ho i d o m Ed Eo Em) as Hoo. rewrite received_slog in E.
        destruct (Nat.leb_spec (S i) i); [lia|]. rewrite andb_false_r in E.
        destruct (nth_error (msgs 0 0 (pr_sent o)) 0) as [pl|] eqn:Ep; [|discriminate]. injection E as <-.
        assert (pl = GN (length d)) by (inversion Hoo; subst o; cbn in Ep; [discriminate|injection Ep as <-; reflexivity..]). subst pl.
        exists (3 + 2 * length rest - S i + list_sum ns)%nat. split; [|lia].
        exists (mkProc (GSize (S (S i)) (map (@length Q) (firstn (S i) rest)) d0) [] (slog (S i))), os, (3 + 2 * length rest - S i)%nat, ns.
        split; [|split; [constructor; lia|auto]]. cbn [update]. f_equal. f_equal.
        { f_equal. erewrite firstn_succ; [|exact Ed]. now rewrite map_app. }
        { unfold slog. now rewrite seq_S, map_app. }
      * injection E as <-. assert (i = length rest) by lia. subst i. exists (2 + length rest - 0 + list_sum ns)%nat. split; [|lia].
        eexists (mkProc _ _ _), os, (2 + length rest - 0)%nat, ns. split; [|split; [apply (rD 0); lia|auto]].
        cbn [update]. f_equal. rewrite firstn_all. cbn. now rewrite !app_nil_r.
    + destruct (nth_error rest i) as [d|] eqn:Ed.
      * assert (i < length rest)%nat by (apply nth_error_Some; congruence).
        assert (Es : skipn i rest = d :: skipn (S i) rest) by (now apply skipn_cons). rewrite Es in E. cbn [map] in E.
        assert (Ef : concat (firstn (S i) rest) = concat (firstn i rest) ++ d). { erewrite firstn_succ; [|exact Ed]. rewrite concat_app. cbn. now rewrite app_nil_r. }
        destruct (nth_error os i) as [o|] eqn:Eo. 2:{ apply nth_error_None in Eo. lia. }
        destruct (nth_error ns i) as [m|] eqn:Em. 2:{ apply nth_error_None in Em. lia. }
        pose proof (Ho i d o m Ed Eo Em) as Hoo.
        destruct (Nat.ltb_spec 0 (length d)) as [Hd|Hd].
        -- cbn [nth_error] in E. rewrite Eo in E.
           rewrite received_app, received_slog, received_dlog in E.
           destruct (Nat.leb_spec (S i) i); [lia|]. destruct (Nat.leb_spec (S i) (length rest)); [|lia]. cbn [Nat.leb andb Nat.add] in E.
           destruct (nth_error (msgs 0 0 (pr_sent o)) 1) as [pl|] eqn:Ep; [|discriminate]. injection E as <-.
           assert (pl = GD d) by (inversion Hoo; subst o; cbn in Ep; first [discriminate|injection Ep as <-; reflexivity]). subst pl. rewrite Nat.eqb_refl.
           exists (2 + length rest - S i + list_sum ns)%nat. split; [|lia].
           eexists (mkProc _ _ _), os, (2 + length rest - S i)%nat, ns. split; [|split; [apply (rD (S i)); lia|auto]].
           cbn [update]. f_equal. f_equal.
           { f_equal. now rewrite Ef, app_assoc. }
           { rewrite <- app_assoc. f_equal. unfold dlog. rewrite seq_S, filter_app, map_app. cbn [filter Nat.add]. replace (S i - 1)%nat with i by lia. rewrite Ed.
             destruct d; [cbn in Hd; lia|reflexivity]. }
        -- injection E as <-. assert (d = []) by (destruct d; [reflexivity|cbn in Hd; lia]). subst d.
           exists (2 + length rest - S i + list_sum ns)%nat. split; [|lia].
           eexists (mkProc _ _ _), os, (2 + length rest - S i)%nat, ns. split; [|split; [apply (rD (S i)); lia|auto]].
           cbn [update]. f_equal. f_equal.
           { f_equal. now rewrite Ef, app_nil_r. }
           { f_equal. unfold dlog. rewrite seq_S, filter_app, map_app. cbn [filter Nat.add]. replace (S i - 1)%nat with i by lia. rewrite Ed. cbn. now rewrite app_nil_r. }
      * apply nth_error_None in Ed. assert (i = length rest) by lia. subst i. rewrite skipn_all in E. cbn in E. injection E as <-.
        exists (0 + list_sum ns)%nat. split; [|lia]. eexists (mkProc _ _ _), os, 0%nat, ns. split; [|split; [apply rE|auto]]. cbn [update]. rewrite firstn_all. reflexivity.
    + discriminate.
  - unfold pstep in E. cbn [nth_error] in E. destruct (nth_error os i) as [o|] eqn:Eo; [|discriminate].
    assert (Hi : (i < length rest)%nat) by (rewrite <- L1; apply nth_error_Some; congruence).
    destruct (nth_error rest i) as [d|] eqn:Ed. 2:{ apply nth_error_None in Ed. lia. }
    destruct (nth_error ns i) as [m|] eqn:Em. 2:{ apply nth_error_None in Em. lia. }
    pose proof (Ho i d o m Ed Eo Em) as Hoo.
    assert (G : forall o' m', ps' = r :: update i o' os -> other d o' m' -> (m' < m)%nat -> exists n', good ps' n' /\ (n' < nr + list_sum ns)%nat).
    { intros o' m' -> H1 H2. exists (nr + list_sum (update i m' ns))%nat. split.
      - exists r, (update i o' os), nr, (update i m' ns). destruct (other_update os ns i d o' m' L1 L2 Ho Ed H1) as (A & B & C). repeat split; auto.
      - pose proof (update_sum i ns m m' Em H2). lia. }
    inversion Hoo; subst o m; cbn [pr_state gnext pr_sent pr_recv length app] in E.
    + cbn in E. injection E as <-. eapply G; [reflexivity|apply oB|lia].
    + destruct (wait_over _ _ _ _ _); [|discriminate]. injection E as <-. eapply G; [reflexivity|apply oC|lia].
    + destruct (Nat.ltb_spec 0 (length d)) as [Hd|Hd].
      * cbn in E. injection E as <-. eapply G; [reflexivity|apply oD; intros ->; cbn in Hd; lia|lia].
      * injection E as <-. eapply G; [reflexivity|apply oE; destruct d; [reflexivity|cbn in Hd; lia]|lia].
    + destruct (wait_over _ _ _ _ _); [|discriminate]. injection E as <-. eapply G; [reflexivity|apply oF; auto|lia].
    + discriminate.
    + discriminate.
Qed.

Lemma wait_ok i (o r : proc gpayload gstate) os n : nth_error os i = Some o ->
  Forall (fun e => fst (fst e) = 0%nat) (pr_sent o) -> length (pr_sent o) = n -> (n <= received (S i) 0 (pr_recv r))%nat ->
  wait_over eager (S i) 0 o (r :: os) = true.
Proof.
  intros Ho H0 Hn Hr. unfold wait_over. apply forallb_forall. intros d _. destruct (nth_error (r :: os) d) as [them|] eqn:Et; [|reflexivity].
  apply forallb_forall. intros j Hj. apply in_seq in Hj. destruct d as [|d].
  - cbn in Et. injection Et as <-. apply orb_true_iff. right. apply Nat.ltb_lt. assert (length (msgs 0 0 (pr_sent o)) <= n)%nat; [|lia].
    unfold msgs. rewrite map_length. rewrite <- Hn. clear. induction (pr_sent o) as [|a l IH]; [apply le_n|]. cbn [filter]. destruct (_ && _); cbn [length]; lia.
  - exfalso. assert (msgs (S d) 0 (pr_sent o) = []); [|destruct Hj as [_ Hj]; rewrite H in Hj; cbn in Hj; lia].
    unfold msgs. clear - H0. induction H0 as [|[[a b] c] l Ha H IH]; [reflexivity|]. cbn in *. subst a. cbn. exact IH.
Qed.

(* While the root is not done, somebody can move; if nobody can, all are done. *)
Lemma good_stuck ps n : good ps n -> (forall k, step k ps = None) ->
  map pr_state ps = GDone (d0 ++ concat rest) :: map GDone rest.
Proof.
  intros (r & os & nr & ns & -> & Hr & L1 & L2 & Ho & ->) St.
  assert (K : forall i d, nth_error rest i = Some d -> exists o, nth_error os i = Some o /\ exists m, other d o m /\
     ((1 <= received (S i) 0 (pr_recv r))%nat -> pr_state o = GWaitData d \/ pr_state o = GDone d) /\
     ((2 <= received (S i) 0 (pr_recv r))%nat -> pr_state o = GDone d) /\
     pr_state o <> GSendSize d /\ pr_state o <> GSendData d).
  { intros i d Ed. assert (Hi : (i < length rest)%nat) by (apply nth_error_Some; congruence).
    destruct (nth_error os i) as [o|] eqn:Eo. 2:{ apply nth_error_None in Eo. lia. }
    destruct (nth_error ns i) as [m|] eqn:Em. 2:{ apply nth_error_None in Em. lia. }
    pose proof (Ho i d o m Ed Eo Em) as Hoo. exists o. split; [reflexivity|]. exists m. split; [exact Hoo|].
    specialize (St (S i)). unfold pstep in St. cbn [nth_error] in St. rewrite Eo in St.
    pose proof (wait_ok i o r os (length (pr_sent o)) Eo) as W. specialize (fun H => W H eq_refl).
    inversion Hoo; subst o m; cbn [pr_state gnext pr_sent pr_recv length app] in *; try (cbn in St; discriminate).
    - destruct (wait_over _ _ _ _ _); [discriminate|]. repeat split; try (intros; discriminate); intros Hx; exfalso;
        (assert (false = true); [apply W; [repeat constructor|lia]|discriminate]).
    - destruct (0 <? length d)%nat; cbn in St; discriminate.
    - destruct (wait_over _ _ _ _ _); [discriminate|]. repeat split; auto; try (intros; discriminate). intros Hx; exfalso.
      assert (false = true); [apply W; [repeat constructor|lia]|discriminate].
    - repeat split; auto; intros; discriminate.
    - repeat split; auto; intros; discriminate. }
  inversion Hr as [i Hi E1 E2|i Hi E1 E2|E1 E2]; subst r; cbn [pr_recv] in K.
  - exfalso. specialize (St 0%nat). unfold pstep in St. cbn [nth_error pr_state gnext pr_recv] in St.
    destruct (Nat.ltb_spec (S i) P) as [Hlt|Hge]; [|discriminate].
    destruct (nth_error rest i) as [d|] eqn:Ed. 2:{ apply nth_error_None in Ed. lia. }
    destruct (K i d Ed) as (o & Eo & m & Hoo & K1 & K2 & K3 & _). cbn [nth_error] in St. rewrite Eo in St.
    rewrite received_slog in *. destruct (Nat.leb_spec (S i) i); [lia|]. rewrite andb_false_r in *.
    inversion Hoo; subst o; cbn in St, K3; congruence.
  - exfalso. specialize (St 0%nat). unfold pstep in St. cbn [nth_error pr_state gnext pr_recv] in St.
    destruct (nth_error rest i) as [d|] eqn:Ed.
    + assert (i < length rest)%nat by (apply nth_error_Some; congruence).
      assert (Es : skipn i rest = d :: skipn (S i) rest) by (now apply skipn_cons). rewrite Es in St. cbn [map] in St.
      destruct (Nat.ltb_spec 0 (length d)) as [Hd|Hd]; [|discriminate].
      destruct (K i d Ed) as (o & Eo & m & Hoo & K1 & K2 & K3 & K4). cbn [nth_error] in St. rewrite Eo in St.
      rewrite received_app, received_slog, received_dlog in *. destruct (Nat.leb_spec (S i) i); [lia|]. destruct (Nat.leb_spec (S i) (length rest)); [|lia]. cbn in K1, St.
      specialize (K1 (le_n 1)).
      inversion Hoo; subst o; cbn in K1, K3, K4, St; try congruence; try (destruct K1; congruence). subst d. cbn in Hd. lia.
    + apply nth_error_None in Ed. assert (i = length rest) by lia. subst i. rewrite skipn_all in St. discriminate.
  - cbn [map pr_state]. f_equal.
    assert (A : forall i, nth_error (map pr_state os) i = nth_error (map GDone rest) i).
    { intros i. rewrite !nth_error_map. destruct (nth_error rest i) as [d|] eqn:Ed.
      - destruct (K i d Ed) as (o & Eo & m & Hoo & K1 & K2 & K3 & K4). rewrite Eo. cbn. f_equal.
        assert (Hi : (i < length rest)%nat) by (apply nth_error_Some; congruence).
        rewrite received_app, received_slog, received_dlog in *. destruct (Nat.leb_spec (S i) (length rest)); [|lia]. cbn [Nat.leb andb] in *.
        unfold full in *. replace (S i - 1)%nat with i in * by lia. rewrite Ed in *. destruct d as [|q d].
        + destruct (K1 (le_n 1)) as [H1|H1]; [|exact H1]. inversion Hoo; subst o; cbn in *; congruence.
        + apply K2. apply le_n.
      - apply nth_error_None in Ed. rewrite (proj2 (nth_error_None os i)) by lia. reflexivity. }
    revert A. clear. generalize (map pr_state os), (map GDone rest). induction l as [|a l IH]; intros [|b l'] A.
    + reflexivity.
    + specialize (A 0%nat). discriminate.
    + specialize (A 0%nat). discriminate.
    + f_equal; [specialize (A 0%nat); cbn in A; congruence|]. apply IH. intros i. apply (A (S i)).
Qed.

Lemma good_boot : exists n, good (gboot (d0 :: rest)) n.
Proof.
  unfold gboot. cbn [length seq combine map fst snd Nat.eqb].
  eexists. exists (mkProc (GSize 1 [] d0) [] []), (map (fun d => mkProc (GSendSize d) [] []) rest), (3 + 2 * length rest - 0)%nat, (map (fun _ => 4%nat) rest).
  split.
  { f_equal. assert (A : forall l a, map (fun kd : nat * list Q => mkProc (if (fst kd =? 0)%nat then GSize 1 [] (snd kd) else GSendSize (snd kd)) (@nil (nat * nat * gpayload)) [])
        (combine (seq (S a) (length l)) l) = map (fun d => mkProc (GSendSize d) [] []) l).
    { induction l as [|d l IH]; intros a; [reflexivity|]. cbn [length seq combine map fst snd Nat.eqb]. f_equal. apply IH. }
    apply A. }
  split; [apply (rS 0); lia|]. rewrite !map_length. split; [reflexivity|]. split; [reflexivity|]. split; [|reflexivity].
  intros i d o m H1 H2 H3. rewrite nth_error_map, H1 in H2, H3. cbn in *. injection H2 as <-. injection H3 as <-. constructor.
Qed.

Lemma gather_all : exists N, forall v ps, execute eager (gnext P) v (gboot (d0 :: rest)) = Some ps ->
  (length v <= N)%nat /\ ((forall k, step k ps = None) -> map pr_state ps = GDone (d0 ++ concat rest) :: map GDone rest).
Proof.
  destruct good_boot as (n & Hn). exists n. generalize (gboot (d0 :: rest)), Hn. clear Hn. intros l Hl v. revert n l Hl.
  induction v as [|k v IH]; intros n l Hl ps E; cbn in E.
  - injection E as <-. split; [cbn; lia|]. intros St. now apply (good_stuck l n).
  - destruct (pstep eager (gnext P) k l) as [l1|] eqn:E1; [|discriminate]. destruct (good_step k l l1 n Hl E1) as (n1 & G1 & Lt).
    destruct (IH n1 l1 G1 ps E) as [H1 H2]. split; [cbn; lia|exact H2].
Qed.
End G.
