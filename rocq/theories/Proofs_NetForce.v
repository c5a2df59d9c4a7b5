From Verif Require Import Lib Model_Store Spec_Store Model_Group Model_Topology Model_NetForce Spec_NetForce.
From Verif Require Spec_Group Proofs_Group Model_Series Spec_Series Proofs_Series Properties_Series.
Import Spec_Group Proofs_Group.
Local Open Scope Z_scope.

Lemma is_on_livesb s id : is_on s id = livesb s id. Proof. reflexivity. Qed.
Lemma sits_lookup s id l : lookup_exact s -> (sits s id l <-> getLocalID id s = Z.of_nat l).
Proof. intros H. destruct (H id l) as [A _]. symmetry. exact A. Qed.
Lemma told_lookup ids s0 s : lookup_exact s0 -> lookup_exact s -> (forall id l, In id ids -> (sits s0 id l <-> sits s id l)) ->
  forall id, In id ids -> getLocalID id s = getLocalID id s0.
Proof.
  intros H0 H1 H id Hi.
  destruct (H0 id 0%nat) as (_ & _ & [E|(k & E)]).
  - rewrite E. destruct (H1 id 0%nat) as (_ & _ & [E1|(k & E1)]); [exact E1|].
    exfalso. assert (sits s id k) by (apply (sits_lookup s id k H1); exact E1).
    apply (H id k Hi), (sits_lookup s0 id k H0) in H2. lia.
  - rewrite E. apply (sits_lookup s id k H1), (H id k Hi), (sits_lookup s0 id k H0), E.
Qed.
Lemma is_on_lookup s id : lookup_exact s -> is_on s id = (-1 <? getLocalID id s).
Proof. intros H. symmetry. apply (lookup_livesb s id H). Qed.

(* the group that belongs to a list of ids at a store *)
Definition grp (s : store) (ids : list Z) : group := mkGroup ids (map (fun k => getLocalID k s) ids) true.

Lemma sequence_total (l : list num) : ~ In None l -> exists v, sequence l = Some v /\ length v = length l /\ forall d, nth d v 0%Q = match nth d l None with Some q => q | None => 0%Q end.
Proof.
  induction l as [|[q|] l IH]; intros H.
  - exists []. split; [reflexivity|]. split; [reflexivity|]. intros d. destruct d; reflexivity.
  - destruct IH as (v & E & L & N); [intros A; apply H; right; exact A|].
    exists (q :: v). cbn [sequence]. rewrite E. split; [reflexivity|]. split; [cbn; lia|]. intros [|d]; [reflexivity|apply N].
  - exfalso. apply H. left. reflexivity.
Qed.

Lemma find_unique s id l p : lookup_exact s -> at_ s l p -> alive p -> p_gid p = id ->
  exists q, find (fun p => aliveb p && (p_gid p =? id)) (firstn (st_size s) (st_mem s)) = Some q /\ p = q.
Proof.
  intros H (Hl & Hp) Ha Hg.
  destruct (find (fun p => aliveb p && (p_gid p =? id)) (firstn (st_size s) (st_mem s))) as [q|] eqn:E.
  - exists q. split; [reflexivity|]. apply find_some in E as [Hi Hq]. apply andb_prop in Hq as [Qa Qg].
    apply In_nth_error in Hi as [l' Hl'].
    assert (L' : (l' < st_size s)%nat).
    { assert (nth_error (firstn (st_size s) (st_mem s)) l' <> None) by congruence. apply nth_error_Some in H0. rewrite firstn_length in H0. lia. }
    assert (N' : nth_error (st_mem s) l' = Some q).
    { rewrite <- (firstn_skipn (st_size s) (st_mem s)), nth_error_app1; [exact Hl'|]. apply nth_error_Some. congruence. }
    assert (A' : alive q). { unfold aliveb in Qa. unfold alive. destruct (p_type q <? 0) eqn:Et; [discriminate|]. apply Z.ltb_ge in Et. exact Et. }
    apply Z.eqb_eq in Qg.
    assert (S1 : getLocalID id s = Z.of_nat l) by (apply (sits_lookup s id l H); exists p; repeat split; assumption).
    assert (S2 : getLocalID id s = Z.of_nat l') by (apply (sits_lookup s id l' H); exists q; repeat split; assumption).
    assert (l = l') by lia. subst l'. congruence.
  - exfalso. assert (HC : (l < length (st_mem s))%nat) by (apply nth_error_Some; congruence).
    assert (In p (firstn (st_size s) (st_mem s))).
    { apply nth_error_In with l. rewrite <- (firstn_skipn (st_size s) (st_mem s)), nth_error_app1 in Hp; [exact Hp|].
      rewrite firstn_length. lia. }
    pose proof (find_none _ _ E _ H0) as F. cbn in F. rewrite Hg, Z.eqb_refl, andb_true_r in F. unfold aliveb, alive in *.
    destruct (p_type p <? 0) eqn:Et; [apply Z.ltb_lt in Et; lia|discriminate].
Qed.

Lemma force_read_ok dims s id : lookup_exact s -> forces_known dims s -> is_on s id = true ->
  exists v, force_read s (getLocalID id s) = Some v /\ length v = dims /\ forall d, nth d v 0%Q = force_on_id s id d.
Proof.
  intros H (D & F) Ho. rewrite (is_on_lookup s id H) in Ho. apply Z.ltb_lt in Ho.
  destruct (H id 0%nat) as (_ & _ & [E|(l & E)]); [lia|].
  pose proof (proj1 (proj1 (H id l)) E) as (p & Hp & Ha & Hg).
  destruct (find_unique s id l p H Hp Ha Hg) as (q & Eq & <-).
  destruct Hp as (Hl & Hn).
  assert (Hin : In p (firstn (st_size s) (st_mem s))) by (apply find_some in Eq; tauto).
  destruct (F p Hin) as (Lp & Np). destruct (sequence_total (p_f p) Np) as (v & Ev & Lv & Nv).
  exists v. unfold force_read, force_on_id. rewrite E, Eq. replace (Z.of_nat l <? 0) with false by (symmetry; apply Z.ltb_ge; lia).
  rewrite Nat2Z.id, Hn. split; [exact Ev|]. split; [congruence|exact Nv].
Qed.

Lemma nth_plus n a b d : (d < n)%nat -> nth d (plus_vec n a b) 0%Q = (nth d a 0 + nth d b 0)%Q.
Proof.
  intros H. unfold plus_vec. apply nth_error_nth. rewrite nth_error_map. 
  rewrite (nth_error_nth' (seq 0 n) 0%nat) by (rewrite seq_length; exact H). rewrite seq_nth by exact H. reflexivity.
Qed.

Lemma net_ok dims s ids : lookup_exact s -> forces_known dims s -> Forall (fun id => is_on s id = true) ids ->
  exists v, findNetForce s (grp s ids) = Some v /\ length v = dims /\ forall d, (d < dims)%nat -> (nth d v 0 == qsum (map (fun id => force_on_id s id d) ids))%Q.
Proof.
  intros H F Hon. unfold findNetForce, group_size, grp. cbn [g_gids g_lids].
  destruct F as (D & F). rewrite D. destruct (length ids =? 0)%nat eqn:E0.
  - apply Nat.eqb_eq, length_zero_iff_nil in E0. subst ids. exists (repeat 0%Q dims). split; [reflexivity|]. split; [apply repeat_length|].
    intros d Hd. rewrite nth_repeat. reflexivity.
  - clear E0. assert (G : forall acc, length acc = dims -> exists v, fold_left (fun acc lid => match acc, force_read s lid with Some a, Some f => Some (plus_vec dims a f) | _, _ => None end)
        (map (fun k => getLocalID k s) ids) (Some acc) = Some v /\ length v = dims /\ forall d, (d < dims)%nat -> (nth d v 0 == nth d acc 0 + qsum (map (fun id => force_on_id s id d) ids))%Q).
    { induction ids as [|id ids IH]; intros acc La; cbn [map fold_left qsum fold_right].
      - exists acc. split; [reflexivity|]. split; [exact La|]. intros d Hd. ring.
      - inversion Hon as [|? ? H1 H2]; subst. destruct (force_read_ok (st_dims s) s id H (conj eq_refl F) H1) as (f & Ef & Lf & Nf).
        rewrite Ef. destruct (IH H2 (plus_vec (st_dims s) acc f)) as (v & Ev & Lv & Nv); [unfold plus_vec; rewrite map_length, seq_length; reflexivity|].
        exists v. split; [exact Ev|]. split; [exact Lv|]. intros d Hd. rewrite (Nv d Hd), (nth_plus _ _ _ _ Hd), Nf. cbn [map fold_right].
        fold (qsum (map (fun id => force_on_id s id d) ids)). ring. }
    destruct (G (repeat 0%Q dims) (repeat_length _ _)) as (v & Ev & Lv & Nv). exists v. split; [exact Ev|]. split; [exact Lv|].
    intros d Hd. rewrite (Nv d Hd), nth_repeat. ring.
Qed.

Lemma update_grp s ids lids : lookup_exact s -> length lids = length ids ->
  update_local_ids s (mkGroup ids lids true) = Some (grp s (filter (is_on s) ids)).
Proof.
  intros H L. rewrite update_spec by (try reflexivity; exact L). unfold grp. cbn [g_gids].
  rewrite (filter_ext_In' (fun k => -1 <? getLocalID k s) (is_on s) ids) by (intros a _; symmetry; apply is_on_lookup, H). reflexivity.
Qed.

Lemma post_ok dims s s0 ids : lookup_exact s -> forces_known dims s -> lookup_exact s0 -> told ids s0 s ->
  Forall (fun id => is_on s0 id = true) ids ->
  exists v, post_step_local s (grp s0 ids) = Some (grp s (filter (is_on s) ids), v) /\ length v = dims /\
    forall d, (d < dims)%nat -> (nth d v 0 == qsum (map (fun id => force_on_id s id d) (filter (is_on s) ids)))%Q.
Proof.
  intros H F H0 HT Hon. unfold post_step_local.
  assert (EG : (if st_locals s then update_local_ids s (grp s0 ids) else Some (grp s0 ids)) = Some (grp s (filter (is_on s) ids))).
  { destruct HT as [E|T].
    - rewrite E. apply update_grp; [exact H|]. apply map_length.
    - pose proof (told_lookup ids s0 s H0 H T) as TL.
      assert (EF : filter (is_on s) ids = ids).
      { clear - TL Hon H H0. induction ids as [|a l IH]; [reflexivity|]. cbn [filter].
        inversion Hon; subst. rewrite (is_on_lookup s a H), (TL a (or_introl eq_refl)), <- (is_on_lookup s0 a H0), H3, IH; [reflexivity|exact H4|intros; apply TL; right; assumption]. }
      destruct (st_locals s); [apply update_grp; [exact H|apply map_length]|].
      rewrite EF. unfold grp. do 2 f_equal. apply map_ext_in. intros a Ha. symmetry. apply TL, Ha. }
  rewrite EG. destruct (net_ok dims s (filter (is_on s) ids) H F) as (v & Ev & Lv & Nv).
  - apply Forall_forall. intros a Ha. apply filter_In in Ha. tauto.
  - exists v. rewrite Ev. split; [reflexivity|]. split; assumption.
Qed.
Lemma post_first dims s ids lids : lookup_exact s -> forces_known dims s -> st_locals s = true -> length lids = length ids ->
  exists v, post_step_local s (mkGroup ids lids true) = Some (grp s (filter (is_on s) ids), v) /\ length v = dims /\
    forall d, (d < dims)%nat -> (nth d v 0 == qsum (map (fun id => force_on_id s id d) (filter (is_on s) ids)))%Q.
Proof.
  intros H F HL L. unfold post_step_local. rewrite HL, update_grp by assumption.
  destruct (net_ok dims s (filter (is_on s) ids) H F) as (v & Ev & Lv & Nv).
  - apply Forall_forall. intros a Ha. apply filter_In in Ha. tauto.
  - exists v. rewrite Ev. split; [reflexivity|]. split; assumption.
Qed.

(* ---------- all processors, all recordings ---------- *)
(* the ids of processor k that were alive there at every one of these recordings *)
Definition stayed (h : list (Q * (nat -> store))) (k : nat) (ids : list Z) : list Z :=
  filter (fun id => forallb (fun e => is_on (snd e k) id) h) ids.
Lemma sequence_map {A B} (f : A -> option B) (g : A -> B) l : (forall a, In a l -> f a = Some (g a)) -> sequence (map f l) = Some (map g l).
Proof. induction l as [|a l IH]; intros H; [reflexivity|]. cbn [map sequence]. rewrite (H a (or_introl eq_refl)), IH; [reflexivity|]. intros b Hb. apply H. right. exact Hb. Qed.
Lemma sequence_exists {A B} (f : A -> option B) (Pr : A -> B -> Prop) l : (forall a, In a l -> exists b, f a = Some b /\ Pr a b) ->
  exists r, sequence (map f l) = Some r /\ Forall2 Pr l r.
Proof.
  induction l as [|a l IH]; intros H; [exists []; split; [reflexivity|constructor]|].
  destruct (H a (or_introl eq_refl)) as (b & E & Pb). destruct IH as (r & Er & Fr); [intros c Hc; apply H; right; exact Hc|].
  exists (b :: r). cbn [map sequence]. rewrite E, Er. split; [reflexivity|constructor; assumption].
Qed.
Lemma combine_map_seq {A} (f : nat -> A) l : combine l (map f l) = map (fun k => (k, f k)) l.
Proof. induction l as [|a l IH]; [reflexivity|]. cbn. now rewrite IH. Qed.
Lemma map_combine_ext {A} (f : nat -> A) n : combine (seq 0 n) (map f (seq 0 n)) = map (fun k => (k, f k)) (seq 0 n).
Proof. apply combine_map_seq. Qed.
Lemma qsum_ext l l' : Forall2 Qeq l l' -> (qsum l == qsum l')%Q.
Proof. induction 1; [reflexivity|]. cbn. rewrite H. unfold qsum in IHForall2. rewrite IHForall2. reflexivity. Qed.

(* one recording, when every processor's part of it succeeds *)
Lemma record_ok P dims t ss gs m rows (gnew : nat -> group) (val : nat -> nat -> Q) : (0 < P)%nat ->
  st_dims (ss 0%nat) = dims -> Spec_Series.holds m dims rows ->
  (forall k, (k < P)%nat -> exists v, post_step_local (ss k) (gs k) = Some (gnew k, v) /\ length v = dims /\ forall d, (d < dims)%nat -> (nth d v 0 == val k d)%Q) ->
  exists m' ys, record P t ss (map gs (seq 0 P), m) = Some (map gnew (seq 0 P), m') /\ Spec_Series.holds m' dims (rows ++ [(t, ys)]) /\
    forall d, (d < dims)%nat -> (nth d ys 0 == qsum (map (fun k => val k d) (seq 0 P)))%Q.
Proof.
  intros HP HD HM HK. unfold record. cbn [fst snd]. rewrite combine_map_seq, map_map. cbn [fst snd].
  destruct (sequence_exists (fun k => post_step_local (ss k) (gs k))
    (fun k gv => fst gv = gnew k /\ length (snd gv) = dims /\ forall d, (d < dims)%nat -> (nth d (snd gv) 0 == val k d)%Q) (seq 0 P)) as (r & Er & Fr).
  { intros k Hk. apply in_seq in Hk. destruct (HK k) as (v & E & L & N); [lia|]. exists (gnew k, v). repeat split; assumption. }
  rewrite Er, HD. 
  destruct (Properties_Series.C49_gather_partial m dims rows t dims (map snd r) HM) as (_ & G & _).
  destruct (G (le_n _)) as (m' & ys & Eg & Hh & N & _). rewrite Eg. exists m', ys.
  assert (Ef : map fst r = map gnew (seq 0 P)). { clear - Fr. induction Fr; [reflexivity|]. cbn. destruct H as (H & _). rewrite H, IHFr. reflexivity. }
  rewrite Ef. split; [reflexivity|]. split; [exact Hh|]. intros d Hd. rewrite (N d Hd). unfold Spec_Series.total.
  apply qsum_ext. rewrite map_map. clear - Fr Hd. induction Fr; [constructor|]. cbn. constructor; [|exact IHFr]. apply H, Hd.
Qed.

Lemma holds_start dims : (0 < dims)%nat -> exists m, Model_Series.create (Z.of_nat dims) = Some m /\ Spec_Series.holds m dims [].
Proof. intros H. destruct (Proofs_Series.create_holds (Z.of_nat dims)) as (m & E & Hh & _); [lia|]. rewrite Nat2Z.id in Hh. exists m. split; assumption. Qed.

(* the whole run *)
Section Run.
Variables (P dims : nat) (ids : nat -> list Z).
Hypothesis (HP : (0 < P)%nat) (HD : (0 < dims)%nat).
Definition good (h : list (Q * (nat -> store))) : Prop :=
  (forall e k, In e h -> (k < P)%nat -> lookup_exact (snd e k) /\ forces_known dims (snd e k)) /\
  (forall e k, hd_error h = Some e -> (k < P)%nat -> st_locals (snd e k) = true) /\
  (forall h1 e e' h2 k, h = h1 ++ e :: e' :: h2 -> (k < P)%nat -> told (ids k) (snd e k) (snd e' k)).
Lemma good_prefix h e : good (h ++ [e]) -> h <> [] -> good h.
Proof.
  intros (A & B & C) Hn. split; [|split].
  - intros e' k Hi. apply A. apply in_or_app. left. exact Hi.
  - intros e' k He. apply B. destruct h; [congruence|exact He].
  - intros h1 a b h2 k E. apply (C h1 a b (h2 ++ [e])). rewrite E, <- app_assoc. reflexivity.
Qed.
Definition row_is (h : list (Q * (nat -> store))) (e : Q * (nat -> store)) (r : Q * list Q) : Prop :=
  fst r = fst e /\ forall d, (d < dims)%nat ->
    (nth d (snd r) 0 == qsum (map (fun k => qsum (map (fun id => force_on_id (snd e k) id d) (stayed (h ++ [e]) k (ids k)))) (seq 0 P)))%Q.
Lemma stayed_snoc h e k l : stayed (h ++ [e]) k l = filter (is_on (snd e k)) (stayed h k l).
Proof. unfold stayed. rewrite filter_filter. apply filter_ext. intros a. rewrite forallb_app. cbn. now rewrite andb_true_r. Qed.
Lemma made_is k : fold_left (fun g id => group_add id g) (ids k) group_of_gflow = mkGroup (ids k) (ids k) true.
Proof. destruct (made_of_spec (ids k)) as (A & B & C). unfold made_of in *. destruct (fold_left _ _ _). cbn in *. congruence. Qed.

Lemma run_ok h : good h -> h <> [] -> exists st0 m rows el hl, start P dims ids = Some st0 /\ h = hl ++ [el] /\
  recordings P h st0 = Some (map (fun k => grp (snd el k) (stayed h k (ids k))) (seq 0 P), m) /\ Spec_Series.holds m dims rows /\
  length rows = length h /\ forall j e, nth_error h j = Some e -> exists r, nth_error rows j = Some r /\ row_is (firstn j h) e r.
Proof.
  induction h as [|e h IH] using rev_ind; [congruence|]. intros G _.
  destruct (holds_start dims HD) as (m0 & E0 & H0).
  assert (ES : start P dims ids = Some (map (fun k => mkGroup (ids k) (ids k) true) (seq 0 P), m0)).
  { unfold start. rewrite E0. cbn. do 2 f_equal. apply map_ext. intros k. apply made_is. }
  destruct (Nat.eq_dec (length h) 0) as [L0|L0].
  - apply length_zero_iff_nil in L0. subst h. cbn [app] in G. destruct G as (A & B & _).
    destruct (record_ok P dims (fst e) (snd e) (fun k => mkGroup (ids k) (ids k) true) m0 []
       (fun k => grp (snd e k) (stayed [e] k (ids k))) (fun k d => qsum (map (fun id => force_on_id (snd e k) id d) (stayed [e] k (ids k)))) HP) as (m & ys & Er & Hh & N).
    { destruct (A e 0%nat (or_introl eq_refl) HP) as (_ & F & _). exact F. }
    { exact H0. }
    { intros k Hk. destruct (A e k (or_introl eq_refl) Hk) as (HL & HF). 
      replace (stayed [e] k (ids k)) with (filter (is_on (snd e k)) (ids k)).
      - apply post_first; [exact HL|exact HF|apply (B e k eq_refl Hk)|reflexivity].
      - unfold stayed. apply filter_ext. intros a. cbn. now rewrite andb_true_r. }
    exists (map (fun k => mkGroup (ids k) (ids k) true) (seq 0 P), m0), m, [(fst e, ys)], e, [].
    split; [exact ES|]. split; [reflexivity|]. split; [exact Er|]. split; [exact Hh|]. split; [reflexivity|].
    intros j e' Hj. destruct j as [|j]; [|destruct j; discriminate]. injection Hj as <-. exists (fst e, ys). split; [reflexivity|]. split; [reflexivity|]. exact N.
  - assert (Hn : h <> []) by (intros ->; apply L0; reflexivity).
    destruct (IH (good_prefix h e G Hn) Hn) as (st0 & m & rows & el & hl & E1 & Eh & Er & Hh & Lr & Rr).
    rewrite ES in E1. injection E1 as <-. destruct G as (A & B & C).
    assert (Hel : In el (h ++ [e])) by (rewrite Eh; apply in_or_app; left; apply in_or_app; right; left; reflexivity).
    assert (He : In e (h ++ [e])) by (apply in_or_app; right; left; reflexivity).
    destruct (record_ok P dims (fst e) (snd e) (fun k => grp (snd el k) (stayed h k (ids k))) m rows
       (fun k => grp (snd e k) (stayed (h ++ [e]) k (ids k))) (fun k d => qsum (map (fun id => force_on_id (snd e k) id d) (stayed (h ++ [e]) k (ids k)))) HP) as (m' & ys & Er' & Hh' & N).
    { destruct (A e 0%nat He HP) as (_ & F & _). exact F. }
    { exact Hh. }
    { intros k Hk. destruct (A e k He Hk) as (HL & HF). destruct (A el k Hel Hk) as (HL0 & _). rewrite stayed_snoc.
      apply post_ok; [exact HL|exact HF|exact HL0| |].
      - assert (T : told (ids k) (snd el k) (snd e k)) by (apply (C hl el e []); [rewrite Eh, <- app_assoc; reflexivity|exact Hk]).
        destruct T as [T|T]; [left; exact T|right]. intros id l Hi. apply T. apply filter_In in Hi. tauto.
      - apply Forall_forall. intros a Ha. rewrite Eh in Ha. rewrite stayed_snoc in Ha. apply filter_In in Ha. tauto. }
    exists (map (fun k => mkGroup (ids k) (ids k) true) (seq 0 P), m0), m', (rows ++ [(fst e, ys)]), e, h.
    split; [exact ES|]. split; [reflexivity|]. split; [unfold recordings in *; rewrite fold_left_app, Er; exact Er'|]. split; [exact Hh'|].
    split; [rewrite !app_length, Lr; reflexivity|].
    intros j e' Hj. destruct (Nat.lt_ge_cases j (length h)) as [Lj|Lj].
    + rewrite nth_error_app1 in Hj by exact Lj. destruct (Rr j e' Hj) as (r & Er2 & R2). exists r.
      rewrite nth_error_app1 by lia. split; [exact Er2|]. rewrite firstn_app, (proj2 (Nat.sub_0_le j (length h))), firstn_O, app_nil_r by lia. exact R2.
    + rewrite nth_error_app2 in Hj by exact Lj. destruct (j - length h)%nat as [|x] eqn:Ex; [|destruct x; discriminate]. injection Hj as <-.
      exists (fst e, ys). rewrite nth_error_app2 by lia. rewrite Lr, Ex. split; [reflexivity|].
      assert (j = length h) by lia. subst j. rewrite firstn_app, firstn_all, Nat.sub_diag, firstn_O, app_nil_r. split; [reflexivity|]. exact N.
Qed.
End Run.
