(* The communication rounds under every schedule (C37). *)
From Coq Require Import String.
From Verif Require Import Lib Model_Geometry Model_Store Model_Buffer Model_Topology Model_Messages Proofs_Topology4 Proofs_Messages1.
From Coq Require Import ZifyBool ZifyNat.
Local Open Scope list_scope.

Lemma update_update {A} (l : list A) : forall k a b, update k a (update k b l) = update k a l.
Proof. induction l as [|c l IH]; intros [|k] a b; cbn; auto. now rewrite IH. Qed.

Section R.
Context {T : Type}.
Variable eager : nat -> nat -> nat -> nat -> bool.
Local Notation step := (pstep eager (@pnext T)).
Local Notation exec := (execute eager (@pnext T)).
Local Notation pr := (proc payload (pstate T)).

Definition entries (r : round T) (out : list (nat * message)) : list (nat * nat * payload) :=
  flat_map (fun dm => (if r_announce r then [(fst dm, send_size_tag, MSize (fst (snd dm)))] else []) ++
                      (if (0 <? fst (snd dm))%nat then [(fst dm, r_tag r, MData (snd (snd dm)))] else [])) out.
Definition rlog (r : round T) (ms : list (nat * message)) : list (nat * nat) :=
  flat_map (fun nm => (if r_announce r then [(fst nm, send_size_tag)] else []) ++
                      (if (0 <? fst (snd nm))%nat then [(fst nm, r_tag r)] else [])) ms.

Lemma message_to_none k out : ~ In k (map fst out) -> message_to k out = None.
Proof.
  unfold message_to. induction out as [|[d m] out IH]; intros H; [reflexivity|]. cbn in *. destruct (Nat.eqb_spec d k); [tauto|]. apply IH. tauto.
Qed.
Lemma message_to_in k out m : message_to k out = Some m -> In (k, m) out.
Proof.
  unfold message_to. destruct (find _ out) as [[d m']|] eqn:E; [|discriminate]. cbn. intros H. injection H as ->.
  apply find_some in E as [H1 H2]. cbn in H2. apply Nat.eqb_eq in H2. now subst.
Qed.
Lemma message_to_some k out m : NoDup (map fst out) -> In (k, m) out -> message_to k out = Some m.
Proof.
  unfold message_to. induction out as [|[d m'] out IH]; intros Hn Hin; [destruct Hin|]. cbn in *. inversion Hn; subst.
  destruct (Nat.eqb_spec d k) as [->|Hd].
  - destruct Hin as [Hin|Hin]; [now injection Hin as ->|]. exfalso. apply H1. apply in_map_iff. exists (k, m). auto.
  - destruct Hin as [Hin|Hin]; [congruence|]. auto.
Qed.

Lemma msgs_entries r k t out : NoDup (map fst out) ->
  msgs k t (entries r out) = match message_to k out with
                             | None => []
                             | Some m => (if r_announce r && (t =? send_size_tag)%nat then [MSize (fst m)] else []) ++
                                         (if (0 <? fst m)%nat && (t =? r_tag r)%nat then [MData (snd m)] else []) end.
Proof.
  induction out as [|[d m] out IH]; intros Hn; [reflexivity|]. cbn in Hn. inversion Hn; subst. cbn [entries flat_map]. rewrite msgs_app.
  fold (entries r out). rewrite IH by auto. unfold message_to. cbn [find fst snd]. fold (message_to k out).
  destruct (Nat.eqb_spec d k) as [->|Hd].
  - cbn [option_map snd]. rewrite message_to_none by auto. rewrite app_nil_r. rewrite msgs_app. f_equal.
    + destruct (r_announce r); [|reflexivity]. unfold msgs. cbn [filter fst snd map andb]. rewrite Nat.eqb_refl, (Nat.eqb_sym send_size_tag t). cbn [andb].
      destruct (t =? send_size_tag)%nat; reflexivity.
    + destruct (0 <? fst m)%nat; [|reflexivity]. unfold msgs. cbn [filter fst snd map andb]. rewrite Nat.eqb_refl, (Nat.eqb_sym (r_tag r) t). cbn [andb].
      destruct (t =? r_tag r)%nat; reflexivity.
  - assert (E : msgs k t ((if r_announce r then [(d, send_size_tag, MSize (fst m))] else []) ++ (if (0 <? fst m)%nat then [(d, r_tag r, MData (snd m))] else [])) = []).
    { rewrite msgs_app. destruct (r_announce r), (0 <? fst m)%nat; unfold msgs; cbn [filter fst snd map app]; destruct (Nat.eqb_spec d k); tauto. }
    cbn [fst snd]. rewrite E. reflexivity.
Qed.

Lemma received_rlog r j t ms : NoDup (map fst ms) ->
  received j t (rlog r ms) = match message_to j ms with
                             | None => 0%nat
                             | Some m => ((if r_announce r && (t =? send_size_tag)%nat then 1 else 0) +
                                          (if (0 <? fst m)%nat && (t =? r_tag r)%nat then 1 else 0))%nat end.
Proof.
  induction ms as [|[d m] ms IH]; intros Hn; [reflexivity|]. cbn in Hn. inversion Hn; subst. cbn [rlog flat_map]. rewrite received_app.
  fold (rlog r ms). rewrite IH by auto. unfold message_to. cbn [find fst snd]. fold (message_to j ms).
  destruct (Nat.eqb_spec d j) as [->|Hd].
  - cbn [option_map snd]. rewrite message_to_none by auto. rewrite Nat.add_0_r. rewrite received_app. f_equal.
    + destruct (r_announce r); [|reflexivity]. unfold received. cbn [filter fst snd andb]. rewrite Nat.eqb_refl, (Nat.eqb_sym send_size_tag t). cbn [andb].
      destruct (t =? send_size_tag)%nat; reflexivity.
    + destruct (0 <? fst m)%nat; [|reflexivity]. unfold received. cbn [filter fst snd andb]. rewrite Nat.eqb_refl, (Nat.eqb_sym (r_tag r) t). cbn [andb].
      destruct (t =? r_tag r)%nat; reflexivity.
  - assert (E : received j t ((if r_announce r then [(d, send_size_tag)] else []) ++ (if (0 <? fst m)%nat then [(d, r_tag r)] else [])) = 0%nat).
    { rewrite received_app. destruct (r_announce r), (0 <? fst m)%nat; unfold received; cbn [filter fst snd]; destruct (Nat.eqb_spec d j); tauto. }
    cbn [fst snd]. rewrite E. reflexivity.
Qed.

(* One processor alone. *)
Lemma exec_trans w1 w2 (a b c : list pr) : exec w1 a = Some b -> exec w2 b = Some c -> exec (w1 ++ w2) a = Some c.
Proof. intros H1 H2. rewrite exec_app, H1. exact H2. Qed.

Lemma solo_send r rounds s k (R : list (nat * nat)) : forall todo S rho, nth_error rho k = Some (mkProc (PSend r todo rounds s) S R) ->
  (forall d m, In (d, m) todo -> (d < length rho)%nat) ->
  exists w, exec w rho = Some (update k (mkProc (PRecv r (r_nbs r k) rounds s) (S ++ entries r todo) R) rho).
Proof.
  induction todo as [|[d m] todo IH]; intros S rho Hk Hd.
  - exists [k]. cbn [execute]. unfold pstep. rewrite Hk. cbn. now rewrite app_nil_r.
  - assert (Hlen : (k < length rho)%nat) by (apply nth_error_Some; congruence).
    assert (Hd0 : (d < length rho)%nat) by (apply (Hd d m); now left).
    (* announce *)
    set (S1 := S ++ (if r_announce r then [(d, send_size_tag, MSize (fst m))] else [])).
    assert (E1 : exec [k] rho = Some (update k (mkProc (PSendData r d m todo rounds s) S1 R) rho)).
    { cbn [execute]. unfold pstep. rewrite Hk. cbn [pr_state pr_sent pr_recv pnext]. unfold S1. destruct (r_announce r).
      - destruct (Nat.ltb_spec d (length rho)); [reflexivity|lia].
      - now rewrite app_nil_r. }
    set (S2 := S1 ++ (if (0 <? fst m)%nat then [(d, r_tag r, MData (snd m))] else [])).
    set (rho1 := update k (mkProc (PSendData r d m todo rounds s) S1 R) rho) in *.
    assert (E2 : exec [k] rho1 = Some (update k (mkProc (PSend r todo rounds s) S2 R) rho1)).
    { cbn [execute]. unfold pstep. unfold rho1 at 1. rewrite update_same by auto. cbn [pr_state pr_sent pr_recv pnext]. unfold S2. destruct (0 <? fst m)%nat.
      - unfold rho1. rewrite update_len. destruct (Nat.ltb_spec d (length rho)); [reflexivity|lia].
      - now rewrite app_nil_r. }
    set (rho2 := update k (mkProc (PSend r todo rounds s) S2 R) rho1) in *.
    destruct (IH S2 rho2) as [w Ew].
    { unfold rho2. apply update_same. unfold rho1. rewrite update_len. exact Hlen. }
    { intros d' m' Hin. unfold rho2, rho1. rewrite !update_len. apply (Hd d' m'). now right. }
    exists ([k] ++ ([k] ++ w)). rewrite (exec_trans [k] _ rho rho1 _ E1 (exec_trans [k] _ rho1 rho2 _ E2 Ew)).
    f_equal. unfold rho2, rho1. rewrite !update_update. do 2 f_equal. unfold S2, S1. cbn [entries flat_map fst snd]. rewrite <- !app_assoc. reflexivity.
Qed.

Lemma solo_recv r rounds k (S : list (nat * nat * payload)) : forall ms R s s' rho,
  nth_error rho k = Some (mkProc (PRecv r (map fst ms) rounds s) S R) -> NoDup (map fst ms) -> accept_all r k ms s = Some s' ->
  (forall n m, In (n, m) ms -> exists them, nth_error rho n = Some them /\
     (r_announce r = true -> nth_error (msgs k send_size_tag (if (n =? k)%nat then S else pr_sent them)) (received n send_size_tag R) = Some (MSize (fst m))) /\
     ((0 < fst m)%nat -> nth_error (msgs k (r_tag r) (if (n =? k)%nat then S else pr_sent them))
          (received n (r_tag r) R + (if r_announce r && (r_tag r =? send_size_tag)%nat then 1 else 0)) = Some (MData (snd m))) /\
     (fst m = 0%nat -> m = (0%nat, []))) ->
  (r_announce r = false -> (forall n m, In (n, m) ms -> r_expect r k s n = fst m) /\
     forall a b n m, r_accept r k n m a = Some b -> forall n', r_expect r k b n' = r_expect r k a n') ->
  exists w, exec w rho = Some (update k (mkProc (PRecv r [] rounds s') S (R ++ rlog r ms)) rho).
Proof.
  induction ms as [|[n m] ms IH]; intros R s s' rho Hk Hn Ha Hc He.
  - cbn in Ha. injection Ha as <-. exists []. cbn. f_equal. rewrite app_nil_r. symmetry. now apply update_id.
  - assert (Hlen : (k < length rho)%nat) by (apply nth_error_Some; congruence).
    cbn [map fst] in *. inversion Hn; subst. cbn [accept_all] in Ha. destruct (r_accept r k n m s) as [s1|] eqn:Ea; [|discriminate].
    destruct (Hc n m (or_introl eq_refl)) as (them & Et & C1 & C2 & C3).
    assert (Hsent : forall R0 L0, exists x, nth_error (update k (mkProc L0 S R0) rho) n = Some x /\ pr_sent x = if (n =? k)%nat then S else pr_sent them).
    { intros R0 L0. rewrite update_nth. destruct (Nat.eqb_spec n k) as [->|]; [destruct (Nat.ltb_spec k (length rho)); [|lia]; eexists; split; reflexivity|]. eauto. }
    assert (Hsent0 : exists x, nth_error rho n = Some x /\ pr_sent x = if (n =? k)%nat then S else pr_sent them).
    { exists them. split; [exact Et|]. destruct (Nat.eqb_spec n k) as [->|]; [|reflexivity]. rewrite Hk in Et. now injection Et as <-. }
    set (R1 := R ++ (if r_announce r then [(n, send_size_tag)] else [])).
    set (rho1 := update k (mkProc (PRecvData r n (fst m) (map fst ms) rounds s) S R1) rho).
    assert (E1 : exec [k] rho = Some rho1).
    { cbn [execute]. unfold pstep. rewrite Hk. cbn [pr_state pr_sent pr_recv pnext]. unfold rho1, R1. destruct (r_announce r).
      - destruct Hsent0 as (x & -> & ->). rewrite (C1 eq_refl). reflexivity.
      - destruct (He eq_refl) as [He1 _]. rewrite (He1 n m) by now left. rewrite app_nil_r. reflexivity. }
    set (R2 := R1 ++ (if (0 <? fst m)%nat then [(n, r_tag r)] else [])).
    set (rho2 := update k (mkProc (PRecv r (map fst ms) rounds s1) S R2) rho1).
    assert (E2 : exec [k] rho1 = Some rho2).
    { cbn [execute]. unfold pstep. unfold rho1 at 1. rewrite update_same by auto. cbn [pr_state pr_sent pr_recv pnext]. unfold rho2, R2.
      destruct (Nat.ltb_spec 0 (fst m)) as [Hm|Hm].
      - destruct (Hsent R1 (PRecvData r n (fst m) (map fst ms) rounds s)) as (x & Ex & Sx). fold rho1 in Ex. rewrite Ex, Sx.
        assert (Er : received n (r_tag r) R1 = (received n (r_tag r) R + (if r_announce r && (r_tag r =? send_size_tag)%nat then 1 else 0))%nat).
        { unfold R1. rewrite received_app. f_equal. destruct (r_announce r); [|reflexivity]. unfold received. cbn [filter fst snd andb]. rewrite Nat.eqb_refl.
          rewrite (Nat.eqb_sym send_size_tag). cbn [andb]. destruct (r_tag r =? send_size_tag)%nat; reflexivity. }
        rewrite Er, (C2 Hm). unfold accepted. replace (fst m, snd m) with m by (now destruct m). rewrite Ea. reflexivity.
      - unfold accepted. assert (Em : m = (0%nat, [])) by (apply C3; lia). rewrite Em in Ea. rewrite Ea. now rewrite app_nil_r. }
    assert (Rn : forall n' t, n' <> n -> received n' t R2 = received n' t R).
    { intros n' t Hne. unfold R2, R1. rewrite !received_app.
      assert (Z1 : received n' t (if r_announce r then [(n, send_size_tag)] else []) = 0%nat) by (destruct (r_announce r); [|reflexivity]; unfold received; cbn; destruct (Nat.eqb_spec n n'); [congruence|reflexivity]).
      assert (Z2 : received n' t (if (0 <? fst m)%nat then [(n, r_tag r)] else []) = 0%nat) by (destruct (0 <? fst m)%nat; [|reflexivity]; unfold received; cbn; destruct (Nat.eqb_spec n n'); [congruence|reflexivity]).
      lia. }
    destruct (IH R2 s1 s' rho2) as [w Ew]; auto.
    { unfold rho2. apply update_same. unfold rho1. now rewrite update_len. }
    { intros n' m' Hin. assert (Hne : n' <> n). { intros ->. apply H1. apply in_map_iff. exists (n, m'). auto. }
      destruct (Hc n' m' (or_intror Hin)) as (them' & Et' & C1' & C2' & C3').
      unfold rho2, rho1. rewrite update_update. rewrite !Rn by exact Hne.
      destruct (Nat.eqb_spec n' k) as [->|Hnk].
      - eexists. split; [now apply update_same|]. auto.
      - exists them'. split; [now rewrite update_other|]. auto. }
    { intros Hf. destruct (He Hf) as [He1 He2]. split; [|exact He2]. intros n' m' Hin. rewrite (He2 s s1 n m Ea). apply He1. now right. }
    exists ([k] ++ ([k] ++ w)). rewrite (exec_trans [k] _ rho rho1 _ E1 (exec_trans [k] _ rho1 rho2 _ E2 Ew)).
    f_equal. unfold rho2, rho1. rewrite !update_update. do 2 f_equal. unfold R2, R1. cbn [rlog flat_map fst snd]. rewrite <- !app_assoc. reflexivity.
Qed.

(* ---- whole rounds *)
Definition quiescent (ps : list pr) : Prop := forall j k a b t, nth_error ps j = Some a -> nth_error ps k = Some b ->
  received j t (pr_recv b) = length (msgs k t (pr_sent a)).

Record round_ok (r : round T) (ss : list T) : Prop := {
  ok_tag : r_tag r <> send_size_tag;
  ok_nodup : forall k, (k < length ss)%nat -> NoDup (r_nbs r k);
  ok_sym : forall k n, (k < length ss)%nat -> In n (r_nbs r k) -> (n < length ss)%nat /\ In k (r_nbs r n);
  ok_out : forall k s out s', nth_error ss k = Some s -> r_local r k s = Some (out, s') ->
    map fst out = r_nbs r k /\ forall d m, In (d, m) out -> fst m = 0%nat -> m = (0%nat, []);
  ok_expect : r_announce r = false ->
    (forall k n s sn out s' out' sn' m, nth_error ss k = Some s -> nth_error ss n = Some sn -> r_local r k s = Some (out', s') -> r_local r n sn = Some (out, sn') ->
       In (k, m) out -> r_expect r k s' n = fst m) /\
    (forall k a b n m, r_accept r k n m a = Some b -> forall n', r_expect r k b n' = r_expect r k a n')
}.

Lemma sequence_inv {A B} (f : A -> option B) (l : list A) bs : sequence (map f l) = Some bs -> Forall2 (fun a b => f a = Some b) l bs.
Proof.
  revert bs. induction l as [|a l IH]; intros bs E; cbn in E; [injection E as <-; constructor|].
  destruct (f a) eqn:Ef; [|discriminate]. destruct (sequence (map f l)) as [r|]; [|discriminate]. injection E as <-. constructor; auto.
Qed.
Lemma Forall2_nth2 {A B} (R : A -> B -> Prop) l l' : Forall2 R l l' -> forall i b, nth_error l' i = Some b -> exists a, nth_error l i = Some a /\ R a b.
Proof. induction 1; intros [|i] c E; try discriminate; cbn in *; [injection E as <-; eauto|]. now apply IHForall2. Qed.

Lemma round_run r rounds ss ss' (logs : list (list (nat * nat * payload) * list (nat * nat))) :
  round_ok r ss -> round_all r ss = Some ss' -> length logs = length ss ->
  let ps := map (fun sl => mkProc (PStart (r :: rounds) (fst sl)) (fst (snd sl)) (snd (snd sl))) (combine ss logs) in
  quiescent ps ->
  exists logs' w, length logs' = length ss' /\
    let qs := map (fun sl => mkProc (PStart rounds (fst sl)) (fst (snd sl)) (snd (snd sl))) (combine ss' logs') in
    exec w ps = Some qs /\ quiescent qs /\ length ss' = length ss.
Proof.
  intros OK E HLg ps Hq. unfold round_all in E.
  destruct (sequence (map (fun ks => r_local r (fst ks) (snd ks)) (combine (seq 0 (length ss)) ss))) as [outs|] eqn:Eo; [|discriminate].
  apply sequence_inv in Eo. apply sequence_inv in E.
  pose proof (Forall2_len _ _ _ Eo) as L1. pose proof (Forall2_len _ _ _ E) as L2.
  rewrite combine_length, seq_length, Nat.min_id in L1, L2.
  set (P := length ss) in *.
  (* pointwise facts *)
  assert (Fo : forall k, (k < P)%nat -> exists s S R out s1, nth_error ss k = Some s /\ nth_error logs k = Some (S, R) /\ nth_error outs k = Some (out, s1) /\
     r_local r k s = Some (out, s1) /\ nth_error ps k = Some (mkProc (PStart (r :: rounds) s) S R)).
  { intros k Hk. destruct (nth_error ss k) as [s|] eqn:Es. 2:{ apply nth_error_None in Es. unfold P in Hk. lia. }
    destruct (nth_error logs k) as [[S R]|] eqn:El. 2:{ apply nth_error_None in El. lia. }
    destruct (Forall2_nth _ _ _ Eo k (k, s)) as ([out s1] & E1 & E2). { unfold P. rewrite combine_seq_nth, Es. reflexivity. }
    exists s, S, R, out, s1. cbn [fst snd] in E2. repeat split; auto. unfold ps. rewrite nth_error_map.
    assert (Ec : nth_error (combine ss logs) k = Some (s, (S, R))).
    { clear - Es El. revert logs k Es El. induction ss as [|a l IH]; intros [|b l'] [|k] H1 H2; try discriminate; cbn in *; [congruence|auto]. }
    rewrite Ec. reflexivity. }
  assert (Fi : forall k, (k < P)%nat -> exists out s1 ms s', nth_error outs k = Some (out, s1) /\ delivered r k outs = Some ms /\ accept_all r k ms s1 = Some s' /\ nth_error ss' k = Some s').
  { intros k Hk. destruct (nth_error outs k) as [[out s1]|] eqn:E1. 2:{ apply nth_error_None in E1. lia. }
    destruct (Forall2_nth _ _ _ E k (k, (out, s1))) as (s' & E2 & E3). { rewrite combine_seq_nth, E1. reflexivity. }
    cbn [fst snd] in E3. destruct (delivered r k outs) as [ms|] eqn:Ed; [|discriminate]. exists out, s1, ms, s'. auto. }
  assert (Fd : forall k ms, (k < P)%nat -> delivered r k outs = Some ms -> map fst ms = r_nbs r k /\ NoDup (map fst ms) /\
     forall n m, In (n, m) ms -> exists out s1, nth_error outs n = Some (out, s1) /\ message_to k out = Some m).
  { intros k ms Hk Ed. unfold delivered in Ed. apply sequence_inv in Ed.
    assert (Em : map fst ms = r_nbs r k).
    { clear - Ed. induction Ed as [|n nm l ms H1 H2 IH]; [reflexivity|]. cbn. f_equal; [|exact IH].
      destruct (nth_error outs n); [|discriminate]. destruct (message_to k (fst p)); [|discriminate]. injection H1 as <-. reflexivity. }
    split; [exact Em|]. split; [rewrite Em; now apply OK|]. intros n m Hin. apply In_nth_error in Hin as [i Hi].
    destruct (Forall2_nth2 _ _ _ Ed i _ Hi) as (n0 & _ & E0). destruct (nth_error outs n0) as [[out s1]|] eqn:En; [|discriminate].
    cbn [fst] in E0. destruct (message_to k out) as [m0|] eqn:Em0; [|discriminate]. injection E0 as -> ->. exists out, s1. auto. }
  (* the messages correspond *)
  assert (Fm : forall k j ms out s1, (k < P)%nat -> (j < P)%nat -> delivered r k outs = Some ms -> nth_error outs j = Some (out, s1) ->
     message_to j ms = message_to k out).
  { intros k j ms out s1 Hk Hj Ed Ej. destruct (Fd k ms Hk Ed) as (F1 & F2 & F3).
    destruct (Fo j Hj) as (sj & Sj & Rj & out' & s1' & E1 & _ & E2 & E3 & _). rewrite Ej in E2. injection E2 as <- <-.
    destruct (ok_out _ _ OK j sj out s1 E1 E3) as [Hout _].
    destruct (message_to j ms) as [m|] eqn:Em.
    - apply message_to_in in Em. destruct (F3 j m Em) as (o & s & Eo' & Em'). rewrite Ej in Eo'. injection Eo' as <- <-. congruence.
    - symmetry. apply message_to_none. rewrite Hout. intros Hin. destruct (ok_sym _ _ OK j k Hj Hin) as [_ Hs]. rewrite <- F1 in Hs.
      apply in_map_iff in Hs as ([j' m] & Ej' & Hm). cbn in Ej'. subst j'. rewrite (message_to_some j ms m F2 Hm) in Em. discriminate. }
  (* phase 1 *)
  pose (get1 := fun k => match nth_error ps k, nth_error outs k with
     | Some p, Some (out, s1) => mkProc (PRecv r (r_nbs r k) rounds s1) (pr_sent p ++ entries r out) (pr_recv p)
     | _, _ => mkProc PFail [] [] end).
  pose (get2 := fun k => match nth_error ps k, nth_error outs k, delivered r k outs, nth_error ss' k with
     | Some p, Some (out, s1), Some ms, Some s' => mkProc (PRecv r [] rounds s') (pr_sent p ++ entries r out) (pr_recv p ++ rlog r ms)
     | _, _, _, _ => mkProc PFail [] [] end).
  pose (getlog := fun k => (pr_sent (get2 k), pr_recv (get2 k))).
  pose (get3 := fun k => match nth_error ss' k with Some s' => mkProc (PStart rounds s') (pr_sent (get2 k)) (pr_recv (get2 k)) | None => mkProc PFail [] [] end).
  assert (Lps : length ps = P) by (unfold ps; rewrite map_length, combine_length; lia).
  assert (Hseq : forall (g : nat -> pr) k x, nth_error (map g (seq 0 P)) k = Some x -> (k < P)%nat /\ x = g k).
  { intros g k x Hx. assert (Hk : (k < P)%nat) by (rewrite <- (seq_length P 0), <- (map_length g); apply nth_error_Some; congruence).
    split; [exact Hk|]. rewrite nth_error_map in Hx. rewrite (nth_error_nth' (seq 0 P) 0%nat) in Hx by (rewrite seq_length; exact Hk).
    rewrite seq_nth in Hx by exact Hk. cbn in Hx. congruence. }
  assert (Hseq' : forall (g : nat -> pr) k, (k < P)%nat -> nth_error (map g (seq 0 P)) k = Some (g k)).
  { intros g k Hk. rewrite nth_error_map, (nth_error_nth' (seq 0 P) 0%nat) by (rewrite seq_length; exact Hk). rewrite seq_nth by exact Hk. reflexivity. }
  assert (Lg : forall g : nat -> pr, length (map g (seq 0 P)) = P) by (intros; now rewrite map_length, seq_length).
  destruct (phase eager (@pnext T) ps (map get1 (seq 0 P))) as [w1 W1]; [now rewrite Lg|..].
  { intros k p q rho Hp Hqk Hl Hr _. apply Hseq in Hqk as [Hk ->].
    destruct (Fo k Hk) as (s & S & R & out & s1 & E1 & E2 & E3 & E4 & E5). assert (p = mkProc (PStart (r :: rounds) s) S R) by congruence. subst p.
    unfold get1. rewrite Hp, E3. cbn [pr_sent pr_recv].
    set (rho1 := update k (mkProc (PSend r out rounds s1) S R) rho).
    assert (X1 : exec [k] rho = Some rho1). { cbn [execute]. unfold pstep. rewrite Hr. cbn [pr_state pnext]. rewrite E4. reflexivity. }
    destruct (ok_out _ _ OK k s out s1 E1 E4) as [Hout _].
    destruct (solo_send r rounds s1 k R out S rho1) as [w2 X2].
    { unfold rho1. apply update_same. rewrite Hl, Lps. exact Hk. }
    { intros d m Hin. unfold rho1. rewrite update_len, Hl, Lps. assert (Hin' : In d (r_nbs r k)) by (rewrite <- Hout; apply in_map_iff; exists (d, m); auto).
      now destruct (ok_sym _ _ OK k d Hk Hin'). }
    exists ([k] ++ w2). rewrite (exec_trans _ _ _ _ _ X1 X2). unfold rho1. now rewrite update_update. }
  (* phase 2 *)
  destruct (phase eager (@pnext T) (map get1 (seq 0 P)) (map get2 (seq 0 P))) as [w2 W2]; [now rewrite !Lg|..].
  { intros k p q rho Hp Hqk Hl Hr Hoth. rewrite Lg in Hl. apply Hseq in Hqk as [Hk ->]. apply Hseq in Hp as [_ ->].
    destruct (Fo k Hk) as (s & S & R & out & s1 & E1 & E2 & E3 & E4 & E5). destruct (Fi k Hk) as (out' & s1' & ms & s' & G1 & G2 & G3 & G4).
    rewrite E3 in G1. injection G1 as <- <-. unfold get1 in Hr. rewrite E5, E3 in Hr. cbn [pr_sent pr_recv] in Hr.
    unfold get2. rewrite E5, E3, G2, G4. cbn [pr_sent pr_recv].
    destruct (Fd k ms Hk G2) as (F1 & F2 & F3). rewrite <- F1 in Hr.
    apply (solo_recv r rounds k (S ++ entries r out) ms R s1 s' rho Hr F2 G3).
    - intros n m Hin. assert (Hn : (n < P)%nat). { apply (ok_sym _ _ OK k n Hk). rewrite <- F1. apply in_map_iff. exists (n, m). auto. }
      destruct (Fo n Hn) as (sn & Sn & Rn & outn & s1n & N1 & N2 & N3 & N4 & N5).
      assert (Hm : message_to k outn = Some m). { rewrite <- (Fm k n ms outn s1n Hk Hn G2 N3). now apply message_to_some. }
      destruct (ok_out _ _ OK n sn outn s1n N1 N4) as [Hout Hz].
      assert (Hnd : NoDup (map fst outn)) by (rewrite Hout; now apply OK).
      destruct (nth_error rho n) as [them|] eqn:Et. 2:{ apply nth_error_None in Et. lia. }
      exists them. split; [reflexivity|].
      assert (Hs : (if (n =? k)%nat then S ++ entries r out else pr_sent them) = Sn ++ entries r outn).
      { destruct (Nat.eqb_spec n k) as [->|Hne].
        - assert (Sn = S /\ outn = out) as [-> ->] by (split; congruence). reflexivity.
        - destruct (Hoth n them Hne Et) as [H|H]; apply Hseq in H as [_ ->]; unfold get1, get2; rewrite N5, N3; [reflexivity|].
          destruct (Fi n Hn) as (o2 & s2 & ms2 & s2' & _ & D2 & _ & D3). rewrite D2, D3. reflexivity. }
      rewrite Hs. rewrite !msgs_app, !msgs_entries, Hm by exact Hnd.
      assert (Q : forall t, received n t R = length (msgs k t Sn)).
      { intros t. apply (Hq n k _ _ t N5 E5). }
      rewrite !Q. rewrite Nat.eqb_refl.
      assert (Ht0 : (r_tag r =? send_size_tag)%nat = false) by (apply Nat.eqb_neq; apply OK).
      assert (Ht1 : (send_size_tag =? r_tag r)%nat = false) by (apply Nat.eqb_neq; intros X; apply (ok_tag _ _ OK); congruence).
      rewrite Ht0, Ht1, !andb_false_r. split; [|split].
      + intros ->. rewrite nth_error_app2 by lia. rewrite Nat.sub_diag. reflexivity.
      + intros H0. rewrite nth_error_app2 by lia. rewrite Nat.eqb_refl. destruct (Nat.ltb_spec 0 (fst m)); [|lia]. cbn [andb app].
        replace (length (msgs k (r_tag r) Sn) + 0 - length (msgs k (r_tag r) Sn))%nat with 0%nat by lia. reflexivity.
      + intros H0. apply (Hz k m); [|exact H0]. now apply message_to_in.
    - intros Hf. destruct (ok_expect _ _ OK Hf) as [X1 X2]. split; [|intros a b n m; apply X2]. intros n m Hin.
      assert (Hn : (n < P)%nat). { apply (ok_sym _ _ OK k n Hk). rewrite <- F1. apply in_map_iff. exists (n, m). auto. }
      destruct (Fo n Hn) as (sn & Sn & Rn & outn & s1n & N1 & N2 & N3 & N4 & N5).
      apply (X1 k n s sn outn s1 out s1n m E1 N1 E4 N4). apply message_to_in. rewrite <- (Fm k n ms outn s1n Hk Hn G2 N3). now apply message_to_some. }
  (* quiescence after phase 2 *)
  assert (HQ : quiescent (map get2 (seq 0 P))).
  { intros j k a b t Ha Hb. apply Hseq in Ha as [Hj ->]. apply Hseq in Hb as [Hk ->].
    destruct (Fo j Hj) as (sj & Sj & Rj & outj & s1j & J1 & J2 & J3 & J4 & J5). destruct (Fi j Hj) as (o2 & s2 & msj & s2' & _ & J6 & _ & J7).
    destruct (Fo k Hk) as (sk & Sk & Rk & outk & s1k & K1 & K2 & K3 & K4 & K5). destruct (Fi k Hk) as (o3 & s3 & msk & s3' & _ & K6 & _ & K7).
    unfold get2. rewrite J5, J3, J6, J7, K5, K3, K6, K7. cbn [pr_sent pr_recv].
    destruct (Fd k msk Hk K6) as (_ & F2 & _). destruct (ok_out _ _ OK j sj outj s1j J1 J4) as [Hout _].
    rewrite received_app, received_rlog by exact F2. rewrite msgs_app, app_length, msgs_entries by (rewrite Hout; now apply OK).
    rewrite (Fm k j msk outj s1j Hk Hj K6 J3). pose proof (Hq j k _ _ t J5 K5) as HQ0. cbn [pr_sent pr_recv] in HQ0. rewrite HQ0. f_equal.
    destruct (message_to k outj) as [m|]; [|reflexivity]. rewrite app_length. destruct (r_announce r && (t =? send_size_tag)%nat), ((0 <? fst m)%nat && (t =? r_tag r)%nat); reflexivity. }
  (* phase 3 *)
  destruct (phase eager (@pnext T) (map get2 (seq 0 P)) (map get3 (seq 0 P))) as [w3 W3]; [now rewrite !Lg|..].
  { intros k p q rho Hp Hqk Hl Hr Hoth. rewrite Lg in Hl. apply Hseq in Hqk as [Hk ->]. apply Hseq in Hp as [_ ->].
    destruct (Fo k Hk) as (s & S & R & out & s1 & E1 & E2 & E3 & E4 & E5). destruct (Fi k Hk) as (o2 & s2 & ms & s' & _ & G2 & _ & G4).
    exists [k]. cbn [execute]. unfold pstep. rewrite Hr. unfold get3. rewrite G4.
    assert (Est : pr_state (get2 k) = PRecv r [] rounds s') by (unfold get2; rewrite E5, E3, G2, G4; reflexivity).
    rewrite Est. cbn [pnext].
    assert (Hw : wait_over eager k (r_tag r) (get2 k) rho = true).
    { unfold wait_over. apply forallb_forall. intros d Hd. apply in_seq in Hd. destruct (nth_error rho d) as [them|] eqn:Et; [|reflexivity].
      assert (Hd' : (d < P)%nat) by lia.
      apply forallb_forall. intros i Hi. apply in_seq in Hi. apply orb_true_iff. right. apply Nat.ltb_lt.
      assert (Hrd : pr_recv them = pr_recv (get2 d)).
      { destruct (Nat.eq_dec d k) as [->|Hne]; [rewrite Hr in Et; now injection Et as <-|].
        destruct (Hoth d them Hne Et) as [H|H]; apply Hseq in H as [_ ->]; [reflexivity|]. unfold get3. destruct (Fi d Hd') as (_ & _ & _ & s3' & _ & _ & _ & X). rewrite X. reflexivity. }
      rewrite Hrd. rewrite (HQ k d (get2 k) (get2 d) (r_tag r)) by (apply Hseq'; auto). lia. }
    rewrite Hw. reflexivity. }
  exists (map getlog (seq 0 P)), (w1 ++ (w2 ++ w3)). rewrite map_length, seq_length. split; [lia|].
  assert (Hfin : map (fun sl => mkProc (PStart rounds (fst sl)) (fst (snd sl)) (snd (snd sl))) (combine ss' (map getlog (seq 0 P))) = map get3 (seq 0 P)).
  { assert (G : forall l off, (forall i s, nth_error l i = Some s -> nth_error ss' (off + i) = Some s) ->
      map (fun sl => mkProc (PStart rounds (fst sl)) (fst (snd sl)) (snd (snd sl))) (combine l (map getlog (seq off (length l)))) = map get3 (seq off (length l))).
    { induction l as [|a l IH]; intros off Hi; [reflexivity|]. cbn [length seq map combine fst snd]. f_equal.
      - unfold get3. pose proof (Hi O a eq_refl) as H0. rewrite Nat.add_0_r in H0. rewrite H0. reflexivity.
      - apply IH. intros i s Hs. replace (S off + i)%nat with (off + S i)%nat by lia. now apply Hi. }
    replace P with (length ss') at 1 2 by lia. apply (G ss' 0%nat). auto. }
  cbn zeta. rewrite Hfin. split; [exact (exec_trans _ _ _ _ _ W1 (exec_trans _ _ _ _ _ W2 W3))|]. split; [|lia].
  intros j k a b t Ha Hb. apply Hseq in Ha as [Hj ->]. apply Hseq in Hb as [Hk ->].
  assert (H3 : forall i, (i < P)%nat -> pr_sent (get3 i) = pr_sent (get2 i) /\ pr_recv (get3 i) = pr_recv (get2 i)).
  { intros i Hi. unfold get3. destruct (Fi i Hi) as (_ & _ & _ & s3' & _ & _ & _ & X). rewrite X. auto. }
  destruct (H3 j Hj) as [-> _]. destruct (H3 k Hk) as [_ ->]. apply (HQ j k); now apply Hseq'.
Qed.

(* Several rounds; the conditions of each round hold for what the processors hold when it starts. *)
Fixpoint rounds_ok (rounds : list (round T)) (ss : list T) : Prop :=
  match rounds with
  | [] => True
  | r :: rounds' => round_ok r ss /\ forall ss', round_all r ss = Some ss' -> rounds_ok rounds' ss'
  end.

Lemma rounds_run rounds : forall ss ss' (logs : list (list (nat * nat * payload) * list (nat * nat))),
  rounds_ok rounds ss -> rounds_all rounds ss = Some ss' -> length logs = length ss ->
  quiescent (map (fun sl => mkProc (PStart rounds (fst sl)) (fst (snd sl)) (snd (snd sl))) (combine ss logs)) ->
  exists logs' w, length logs' = length ss' /\ length ss' = length ss /\
    exec w (map (fun sl => mkProc (PStart rounds (fst sl)) (fst (snd sl)) (snd (snd sl))) (combine ss logs)) =
      Some (map (fun sl => mkProc (PStart [] (fst sl)) (fst (snd sl)) (snd (snd sl))) (combine ss' logs')) /\
    quiescent (map (fun sl => mkProc (@PStart T [] (fst sl)) (fst (snd sl)) (snd (snd sl))) (combine ss' logs')).
Proof.
  induction rounds as [|r rounds IH]; intros ss ss' logs OK E HL Hq; cbn in E.
  - injection E as <-. exists logs, []. split; [exact HL|]. split; [reflexivity|]. split; [reflexivity|exact Hq].
  - destruct OK as [OK1 OK2]. destruct (round_all r ss) as [ss1|] eqn:E1; [|discriminate].
    destruct (round_run r rounds ss ss1 logs OK1 E1 HL Hq) as (logs1 & w1 & H1 & H2 & H3 & H4).
    destruct (IH ss1 ss' logs1 (OK2 ss1 eq_refl) E H1 H3) as (logs' & w2 & H5 & H6 & H7 & H8).
    exists logs', (w1 ++ w2). split; [exact H5|]. split; [lia|]. split; [now apply (exec_trans _ _ _ _ _ H2)|exact H8].
Qed.

(* The result is reached under every schedule. *)
Theorem rounds_every_schedule rounds ss ss' : rounds_ok rounds ss -> rounds_all rounds ss = Some ss' ->
  exists N, forall v ps, exec v (boot rounds ss) = Some ps ->
    (length v <= N)%nat /\
    (length v = N -> map pr_state ps = map (PStart []) ss' /\ quiescent ps) /\
    ((length v < N)%nat -> exists k ps', step k ps = Some ps').
Proof.
  intros OK E.
  pose (logs := map (fun _ : T => (@nil (nat * nat * payload), @nil (nat * nat))) ss).
  assert (Hb : boot rounds ss = map (fun sl => mkProc (PStart rounds (fst sl)) (fst (snd sl)) (snd (snd sl))) (combine ss logs)).
  { unfold boot, logs. clear. induction ss; cbn; [reflexivity|]. now f_equal. }
  destruct (rounds_run rounds ss ss' logs OK E) as (logs' & w & H1 & H2 & H3 & H4).
  { unfold logs. now rewrite map_length. }
  { rewrite <- Hb. unfold boot. intros j k a b t Ha Hbb. apply nth_error_In in Ha, Hbb. apply in_map_iff in Ha as (x & <- & _). apply in_map_iff in Hbb as (y & <- & _). reflexivity. }
  rewrite <- Hb in H3. set (tau := map _ _) in H3, H4.
  assert (St : stuck eager (@pnext T) tau).
  { intros k. unfold pstep. destruct (nth_error tau k) as [p|] eqn:Ep; [|reflexivity]. unfold tau in Ep. apply nth_error_In in Ep.
    apply in_map_iff in Ep as (x & <- & _). reflexivity. }
  exists (length w). intros v ps Ev. destruct (confluence eager (@pnext T) w (boot rounds ss) tau H3 St v ps Ev) as (w' & Ew & Lw).
  split; [lia|]. split.
  - intros Hl. destruct w' as [|? ?]; [|cbn in Lw; lia]. cbn in Ew. injection Ew as ->. split; [|exact H4]. unfold tau. rewrite map_map. cbn [pr_state].
    clear - H1. revert logs' H1. induction ss' as [|a l IH]; intros [|b logs'] H1; cbn in *; try discriminate; [reflexivity|]. f_equal. apply IH. lia.
  - intros Hl. destruct w' as [|k w']; [cbn in Lw; lia|]. cbn in Ew. destruct (step k ps) as [ps'|] eqn:Ek; [|discriminate]. eauto.
Qed.
End R.
