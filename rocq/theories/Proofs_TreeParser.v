From Coq Require Import List Bool Ascii Arith Lia ZArith Permutation.
From Verif Require Import Model_Eval Proofs_Eval Model_FileParse Model_TreeParser Spec_TreeParser.
Import ListNotations.

(* --- the order of texts --- *)
Lemma ltb_irrefl : forall a, text_ltb a a = false.
Proof. induction a as [|x a IH]; [reflexivity|]. cbn [text_ltb]. rewrite Nat.ltb_irrefl, Nat.eqb_refl, IH. reflexivity. Qed.
Lemma ltb_trans : forall a b c, text_ltb a b = true -> text_ltb b c = true -> text_ltb a c = true.
Proof.
  induction a as [|x a IH]; intros [|y b] [|z c]; cbn [text_ltb]; intros H1 H2; try discriminate; auto.
  rewrite orb_true_iff, andb_true_iff, Nat.ltb_lt, Nat.eqb_eq in *.
  destruct H1 as [H1|[H1 H1']], H2 as [H2|[H2 H2']]; try (left; lia). right. split; [lia|]. eapply IH; eauto.
Qed.
Lemma ltb_total : forall a b, text_ltb a b = false -> text_ltb b a = false -> a = b.
Proof.
  induction a as [|x a IH]; intros [|y b]; cbn [text_ltb]; intros H1 H2; try discriminate; auto.
  rewrite orb_false_iff, andb_false_iff, Nat.ltb_ge, Nat.eqb_neq in *. destruct H1 as [H1 H1'], H2 as [H2 H2'].
  assert (nat_of_ascii x = nat_of_ascii y) as E by lia.
  assert (x = y) as -> by (rewrite <- (ascii_nat_embedding x), E; apply ascii_nat_embedding).
  f_equal. apply IH; [destruct H1'; [lia|assumption]|destruct H2'; [lia|assumption]].
Qed.
Lemma le_trans a b c : text_ltb b a = false -> text_ltb c b = false -> text_ltb c a = false.
Proof.
  intros H1 H2. destruct (text_ltb c a) eqn:E; [|reflexivity]. destruct (text_ltb a b) eqn:E2.
  - rewrite (ltb_trans c a b E E2) in H2. discriminate.
  - assert (a = b) by (apply ltb_total; assumption). subst. congruence.
Qed.

(* --- the multimap --- *)
Definition eqn (name : text) (e : text * list nat) : bool := text_eqb (fst e) name.
Inductive sorted : multimap -> Prop :=
| So0 : sorted []
| So1 k v m : Forall (fun e => text_ltb (fst e) k = false) m -> sorted m -> sorted ((k, v) :: m).
Lemma insert_perm : forall m k v, Permutation (mm_insert k v m) ((k, v) :: m).
Proof.
  induction m as [|[k' v'] m IH]; intros k v; cbn [mm_insert]; [reflexivity|]. destruct (text_ltb k k'); [reflexivity|].
  rewrite IH. apply perm_swap.
Qed.
Lemma insert_sorted : forall m k v, sorted m -> sorted (mm_insert k v m).
Proof.
  induction m as [|[k' v'] m IH]; intros k v H; cbn [mm_insert].
  - constructor; constructor.
  - inversion H as [|? ? ? Hf Hs]; subst. destruct (text_ltb k k') eqn:E.
    + constructor; [|exact H]. assert (text_ltb k' k = false) by (destruct (text_ltb k' k) eqn:E2; [pose proof (ltb_trans _ _ _ E E2); pose proof (ltb_irrefl k); congruence|reflexivity]).
      constructor; [exact H0|]. eapply Forall_impl; [|exact Hf]. cbn. intros e He. eapply le_trans; eauto.
    + constructor; [|auto]. eapply Permutation_Forall; [symmetry; apply insert_perm|]. constructor; [exact E|exact Hf].
Qed.
Lemma eqn_spec name e : eqn name e = true <-> fst e = name.
Proof. apply text_eqb_eq. Qed.
Lemma greater_none name : forall m, Forall (fun e => text_ltb name (fst e) = true) m -> filter (eqn name) m = [].
Proof.
  induction m as [|e m IH]; intros H; [reflexivity|]. inversion H; subst. cbn [filter]. destruct (eqn name e) eqn:E; [|auto].
  apply eqn_spec in E. rewrite E, ltb_irrefl in H2. discriminate.
Qed.
Lemma insert_filter name : forall m k v, sorted m -> filter (eqn name) (mm_insert k v m) = filter (eqn name) m ++ (if text_eqb k name then [(k, v)] else []).
Proof.
  induction m as [|[k' v'] m IH]; intros k v H; cbn [mm_insert].
  - cbn [filter eqn fst app]. unfold eqn. cbn [fst]. destruct (text_eqb k name); reflexivity.
  - inversion H as [|? ? ? Hf Hs]; subst. destruct (text_ltb k k') eqn:E.
    + cbn [filter]. unfold eqn at 1. cbn [fst]. destruct (text_eqb k name) eqn:Ek.
      * apply text_eqb_eq in Ek. subst. assert (filter (eqn name) ((k', v') :: m) = []) as X.
        { apply greater_none. constructor; [exact E|]. eapply Forall_impl; [|exact Hf]. cbn. intros e He.
          destruct (text_ltb name (fst e)) eqn:E2; [reflexivity|].
          exfalso. destruct (text_ltb k' name) eqn:E3.
          - pose proof (ltb_trans _ _ _ E E3). pose proof (ltb_irrefl name). congruence.
          - pose proof (le_trans k' (fst e) name He E2). congruence. }
        cbn [filter] in X. rewrite X. reflexivity.
      * rewrite app_nil_r. reflexivity.
    + cbn [filter]. rewrite IH by assumption. destruct (eqn name (k', v')); reflexivity.
Qed.
Lemma take_ge name : forall m, sorted m -> Forall (fun e => text_ltb (fst e) name = false) m -> take_eq name m = map snd (filter (eqn name) m).
Proof.
  induction m as [|[k v] m IH]; intros Hs Hf; [reflexivity|]. inversion Hs; subst. inversion Hf as [|? ? Hk Hf']; subst. cbn [fst] in Hk.
  cbn [take_eq filter]. unfold eqn at 1. cbn [fst]. destruct (text_eqb k name) eqn:E; [cbn [map snd]; rewrite IH by assumption; reflexivity|].
  rewrite greater_none; [reflexivity|]. eapply Forall_impl; [|exact H1]. cbn. intros e He.
  assert (text_ltb name k = true) as L.
  { destruct (text_ltb name k) eqn:E2; [reflexivity|]. rewrite (ltb_total k name Hk E2), (proj2 (text_eqb_eq name name) eq_refl) in E. discriminate. }
  destruct (text_ltb name (fst e)) eqn:E2; [reflexivity|]. pose proof (le_trans k (fst e) name He E2). congruence.
Qed.
Lemma find_spec name : forall m, sorted m -> take_eq name (mm_find name m) = map snd (filter (eqn name) m) /\ (mm_find name m = [] <-> filter (eqn name) m = []) /\
  (forall k p r, mm_find name m = (k, p) :: r -> exists ps, map snd (filter (eqn name) m) = p :: ps).
Proof.
  intros m Hs.
  assert (HL : sorted (mm_lower name m) /\ Forall (fun e => text_ltb (fst e) name = false) (mm_lower name m) /\ filter (eqn name) (mm_lower name m) = filter (eqn name) m).
  { induction Hs as [|k v m Hf Hs IH]; cbn [mm_lower]; [repeat split; constructor|]. destruct (text_ltb k name) eqn:E.
    - destruct IH as (I1 & I2 & I3). split; [exact I1|]. split; [exact I2|]. rewrite I3. cbn [filter]. destruct (eqn name (k, v)) eqn:E2; [|reflexivity].
      apply eqn_spec in E2. cbn in E2. subst. rewrite ltb_irrefl in E. discriminate.
    - split; [constructor; assumption|]. split; [|reflexivity]. constructor; [exact E|]. eapply Forall_impl; [|exact Hf]. cbn. intros e He. eapply le_trans; eauto. }
  destruct HL as (L1 & L2 & L3). rewrite <- L3. rewrite <- take_ge by assumption.
  unfold mm_find. destruct (mm_lower name m) as [|[k v] r] eqn:E; [repeat split; auto; intros; discriminate|].
  cbn [take_eq filter]. unfold eqn at 1 2. cbn [fst]. destruct (text_eqb k name) eqn:Ek.
  - cbn [take_eq]. rewrite Ek. split; [reflexivity|]. split; [split; discriminate|]. intros k0 p r0 H. inversion H; subst. eauto.
  - split; [reflexivity|]. split; [|intros; discriminate]. split; [|reflexivity]. intros _.
    assert (X := take_ge name ((k, v) :: r) L1 L2). cbn [take_eq filter] in X. rewrite Ek in X. unfold eqn at 1 in X. cbn [fst] in X. rewrite Ek in X.
    symmetry in X. apply map_eq_nil in X. exact X.
Qed.
Definition sort_all (l : list (text * list nat)) : multimap := fold_left (fun (m : multimap) c => mm_insert (fst c) (snd c) m) l [].
Lemma sort_spec l : sorted (sort_all l) /\ Permutation (sort_all l) l /\ forall name, filter (eqn name) (sort_all l) = filter (eqn name) l.
Proof.
  unfold sort_all. assert (G : forall l m, sorted m -> sorted (fold_left (fun (m : multimap) c => mm_insert (fst c) (snd c) m) l m) /\
    Permutation (fold_left (fun (m : multimap) c => mm_insert (fst c) (snd c) m) l m) (m ++ l) /\
    forall name, filter (eqn name) (fold_left (fun (m : multimap) c => mm_insert (fst c) (snd c) m) l m) = filter (eqn name) (m ++ l)).
  { clear. induction l as [|[k v] l IH]; intros m Hm; cbn [fold_left]; [rewrite app_nil_r; auto|].
    destruct (IH (mm_insert k v m) (insert_sorted m k v Hm)) as (I1 & I2 & I3). split; [exact I1|]. split.
    - cbn [fst snd] in *. rewrite I2, insert_perm. cbn. apply Permutation_middle.
    - intros name. cbn [fst snd]. rewrite I3, !filter_app, insert_filter by assumption. rewrite <- app_assoc. f_equal. cbn [filter]. unfold eqn at 2. cbn [fst].
      destruct (text_eqb k name); reflexivity. }
  apply (G l [] So0).
Qed.

(* --- the children --- *)
Lemma children_under root p : t_children root (Some p) = under root p.
Proof.
  unfold t_children, under. destruct (node_at root p) as [[h ps subs]|]; [|reflexivity]. cbn [h_subs].
  assert (G : forall (l : list node) k (F : nat -> option node), (forall i, F (k + i) = nth_error l i) ->
    map (fun i => (match F i with Some c => h_name c | None => [] end, p ++ [i])) (seq k (length l)) =
    combine (map (fun n => match n with Head h _ _ => h end) l) (map (fun i => p ++ [i]) (seq k (length l)))).
  { induction l as [|n l IH]; intros k F HF; [reflexivity|]. cbn [length seq map combine]. rewrite (IH (S k) F).
    - specialize (HF 0). rewrite Nat.add_0_r in HF. rewrite HF. cbn. destruct n; reflexivity.
    - intros i. replace (S k + i) with (k + S i) by lia. rewrite HF. reflexivity. }
  apply (G subs 0 (fun i => nth_error subs i)). reflexivity.
Qed.
Lemma named_filter root p name : named root p name = map snd (filter (eqn name) (under root p)).
Proof.
  unfold named. f_equal. apply filter_ext. intros e. unfold eqn, text in *. match goal with |- context [if ?d then true else false] => destruct d as [H|H] end.
  - symmetry. apply text_eqb_eq. exact H.
  - symmetry. destruct (text_eqb (fst e) name) eqn:E; [apply text_eqb_eq in E; contradiction|reflexivity].
Qed.

(* --- the parser --- *)
Definition sync (root : node) (t : tparser) : Prop :=
  t_root t = root /\ exists p, t_focus t = Some p /\ t_headings t = sort_all (under root p).
Definition idle (t : tparser) : Prop := t_point t = (-1)%Z /\ t_list t = [] /\ t_mark t = None.
Definition busy (t : tparser) (l : list (list nat)) (m : list nat) (k : nat) : Prop := t_point t = Z.of_nat k /\ t_list t = l /\ t_mark t = Some m /\ (k < length l)%nat.
Lemma sync_focus root t p : t_root t = root -> sync root (set_focus (Some p) t).
Proof.
  intros H. unfold set_focus, sortOptions, sync. cbn [t_root t_focus t_headings]. split; [exact H|]. exists p. split; [reflexivity|].
  rewrite H, children_under. reflexivity.
Qed.
Lemma focus_keeps f t : t_root (set_focus f t) = t_root t /\ t_list (set_focus f t) = t_list t /\ t_mark (set_focus f t) = t_mark t /\ t_point (set_focus f t) = t_point t /\ t_focus (set_focus f t) = f.
Proof. repeat split. Qed.
Lemma find_named root t p name : sync root t -> t_focus t = Some p ->
  take_eq name (mm_find name (t_headings t)) = named root p name /\ (mm_find name (t_headings t) = [] <-> named root p name = []) /\
  (forall k q r, mm_find name (t_headings t) = (k, q) :: r -> exists ps, named root p name = q :: ps).
Proof.
  intros (_ & p' & Hf & Hh) Hp. rewrite Hf in Hp. inversion Hp; subst. rewrite Hh.
  destruct (sort_spec (under root p)) as (S1 & _ & S3). destruct (find_spec name _ S1) as (F1 & F2 & F3).
  rewrite named_filter, S3 in *. split; [exact F1|]. split; [|exact F3]. rewrite F2. split; intros H; [rewrite H; reflexivity|now apply map_eq_nil in H].
Qed.
Lemma op_keeps root o t t' : sync root t -> do_op o t = Some t' -> sync root t' /\ t_list t' = t_list t /\ t_mark t' = t_mark t /\ t_point t' = t_point t.
Proof.
  intros Hs H. pose proof Hs as (Hr & p & Hf & Hh). destruct o as [name|name| |name]; cbn [do_op] in H.
  - unfold t_focus_on in H. destruct (mm_find name (t_headings t)) as [|[k q] r]; cbn [snd] in H; inversion H; subst; [auto|].
    split; [apply sync_focus; reflexivity|]. repeat split.
  - unfold t_focus0, t_focus_on in H. set (t0 := set_focus (Some []) t) in *.
    destruct (mm_find name (t_headings t0)) as [|[k q] r]; cbn [snd] in H; inversion H; subst; (split; [apply sync_focus; reflexivity|repeat split]).
  - unfold t_up in H. rewrite Hf in H. destruct p; cbn [option_map snd] in H; inversion H; subst; [auto|]. split; [apply sync_focus; reflexivity|repeat split].
  - destruct (t_point t =? -1)%Z eqn:E; [discriminate|]. unfold t_begin in H. rewrite E in H. cbn [negb snd] in H. inversion H; subst. auto.
Qed.
Lemma ops_keep root l : forall t t', sync root t -> do_ops l t = Some t' -> sync root t' /\ t_list t' = t_list t /\ t_mark t' = t_mark t /\ t_point t' = t_point t.
Proof.
  induction l as [|o l IH]; intros t t' Hs H; cbn [do_ops] in H; [inversion H; subst; auto|].
  destruct (do_op o t) as [t1|] eqn:E; [|discriminate]. destruct (op_keeps root o t t1 Hs E) as (S1 & E1 & E2 & E3).
  destruct (IH t1 t' S1 H) as (S2 & E4 & E5 & E6). repeat split; try apply S2; congruence.
Qed.
Lemma same_parser root t t' : sync root t -> sync root t' -> idle t -> idle t' -> t_focus t = t_focus t' -> t = t'.
Proof.
  intros (R1 & p1 & F1 & H1) (R2 & p2 & F2 & H2) (I1 & I2 & I3) (J1 & J2 & J3) Hf. rewrite F1, F2 in Hf. inversion Hf; subst.
  destruct t as [ro fo hs li ma po], t' as [ro' fo' hs' li' ma' po']. cbn in *. congruence.
Qed.
Lemma end_idle root t l m k : sync root t -> t_point t = Z.of_nat k -> t_list t = l -> t_mark t = Some m -> sync root (t_end t) /\ idle (t_end t) /\ t_focus (t_end t) = Some m.
Proof.
  intros Hs Hp Hl Hm. unfold t_end. rewrite Hp. destruct (Z.of_nat k =? -1)%Z eqn:E; [lia|]. rewrite Hm.
  destruct Hs as (Hr & _). pose proof (sync_focus root t m Hr) as (R & p & F & H). split; [|split; [repeat split|reflexivity]].
  split; [exact R|]. exists p. split; [exact F|exact H].
Qed.
Lemma next_busy root t l m k : sync root t -> busy t l m k ->
  (S k < length l -> exists q, nth_error l (S k) = Some q /\ exists t', t_next t = (true, t') /\ sync root t' /\ busy t' l m (S k) /\ t_focus t' = Some q)%nat /\
  (length l <= S k -> exists t', t_next t = (false, t') /\ sync root t' /\ idle t' /\ t_focus t' = Some m)%nat.
Proof.
  intros Hs (Hp & Hl & Hm & Hk). unfold t_next. cbn [t_point t_list].
  assert (E : (t_point t + 1 = Z.of_nat (S k))%Z) by lia. rewrite E, Hl.
  set (t1 := mkT (t_root t) (t_focus t) (t_headings t) l (t_mark t) (Z.of_nat (S k))).
  assert (S1 : sync root t1) by exact Hs.
  split; intros Hlt.
  - destruct (Z.of_nat (length l) <=? Z.of_nat (S k))%Z eqn:E2; [apply Z.leb_le in E2; lia|]. rewrite Nat2Z.id.
    destruct (nth_error l (S k)) as [q|] eqn:Eq; [|apply nth_error_None in Eq; lia].
    exists q. split; [reflexivity|]. eexists. split; [reflexivity|]. split; [apply sync_focus; apply Hs|]. split; [|reflexivity]. repeat split; auto.
  - destruct (Z.of_nat (length l) <=? Z.of_nat (S k))%Z eqn:E2; [|apply Z.leb_gt in E2; lia]. eexists. split; [reflexivity|]. apply (end_idle root t1 l m (S k)); auto.
Qed.
Lemma rounds_visit root l m : forall n t k v t', (length l - k = n)%nat -> sync root t -> busy t l m k -> t_focus t = nth_error l k -> rounds t v t' ->
  v = map Some (skipn k l) /\ sync root t' /\ idle t' /\ t_focus t' = Some m.
Proof.
  induction n as [|n IH]; intros t k v t' Hn Hs Hb Hf Hr; [destruct Hb as (_ & _ & _ & ?); lia|].
  assert (Hk : (k < length l)%nat) by apply Hb.
  assert (Esk : exists q, nth_error l k = Some q /\ skipn k l = q :: skipn (S k) l).
  { clear - Hk. revert k Hk. induction l as [|a l IHl]; intros [|k] Hk; cbn in *; try lia; eauto. apply IHl. lia. }
  destruct Esk as (q & Eq & Esk).
  inversion Hr as [t0 ops t1 t2 Ho Hx|t0 ops t1 t2 v0 t3 Ho Hx Hr']; subst.
  - destruct (ops_keep root ops t t1 Hs Ho) as (S1 & E1 & E2 & E3).
    assert (B1 : busy t1 l m k) by (destruct Hb as (? & ? & ? & ?); repeat split; congruence).
    destruct (next_busy root t1 l m k S1 B1) as [N1 N2].
    destruct (Nat.lt_ge_cases (S k) (length l)) as [Hlt|Hge].
    + destruct (N1 Hlt) as (q' & _ & t'' & Hx' & _). congruence.
    + destruct (N2 Hge) as (t'' & Hx' & S2 & I2 & F2). rewrite Hx in Hx'. inversion Hx'; subst.
      rewrite Hf, Eq, Esk, (skipn_all2 l) by lia. cbn. auto.
  - destruct (ops_keep root ops t t1 Hs Ho) as (S1 & E1 & E2 & E3).
    assert (B1 : busy t1 l m k) by (destruct Hb as (? & ? & ? & ?); repeat split; congruence).
    destruct (next_busy root t1 l m k S1 B1) as [N1 N2].
    destruct (Nat.lt_ge_cases (S k) (length l)) as [Hlt|Hge].
    + destruct (N1 Hlt) as (q' & Eq' & t'' & Hx' & S2 & B2 & F2). rewrite Hx in Hx'. inversion Hx'; subst.
      destruct (IH t'' (S k) v0 t' ltac:(lia) S2 B2 ltac:(congruence) Hr') as (V & S3 & I3 & F3).
      rewrite Hf, Eq, Esk, V. cbn. auto.
    + destruct (N2 Hge) as (t'' & Hx' & _). congruence.
Qed.
Lemma begin_idle root t p name : sync root t -> idle t -> t_focus t = Some p ->
  (named root p name = [] /\ t_begin name t = (false, t)) \/
  (exists q ps t', named root p name = q :: ps /\ t_begin name t = (true, t') /\ sync root t' /\ busy t' (q :: ps) p 0 /\ t_focus t' = Some q).
Proof.
  intros Hs (I1 & I2 & I3) Hf. destruct (find_named root t p name Hs Hf) as (F1 & F2 & F3). unfold t_begin. rewrite I1. cbn [negb Z.eqb].
  change (negb (-1 =? -1)%Z) with false. cbv iota.
  destruct (mm_find name (t_headings t)) as [|[k q] r] eqn:E; [left; split; [now apply F2|reflexivity]|].
  destruct (F3 k q r eq_refl) as (ps & Hps). right. rewrite F1, I2, Hps. cbn [app nth_error]. exists q, ps. eexists. split; [reflexivity|]. split; [reflexivity|].
  split; [apply sync_focus; apply Hs|]. split; [|reflexivity]. cbn. rewrite Hf. split; [reflexivity|]. split; [reflexivity|]. split; [reflexivity|cbn; lia].
Qed.
Lemma reached_inv root t : reached root t -> sync root t /\ (idle t \/ exists l m k, busy t l m k).
Proof.
  induction 1 as [|t o t' Hr IH Ho|t name Hr IH|t Hr IH Hp|t Hr IH].
  - split; [|left; repeat split]. unfold t_new. unfold sortOptions. cbn [t_root t_focus t_headings t_list t_mark t_point]. split; [reflexivity|]. exists []. split; [reflexivity|].
    cbn [t_headings]. rewrite children_under. reflexivity.
  - destruct IH as [Hs Hi]. destruct (op_keeps root o t t' Hs Ho) as (S1 & E1 & E2 & E3). split; [exact S1|].
    destruct Hi as [(I1 & I2 & I3)|(l & m & k & B1 & B2 & B3 & B4)]; [left; repeat split; congruence|right; exists l, m, k; repeat split; try congruence].
  - destruct IH as [Hs Hi]. destruct Hi as [Hi|(l & m & k & Hb)].
    + pose proof Hs as (_ & p & Hf & _). destruct (begin_idle root t p name Hs Hi Hf) as [[_ ->]|(q & ps & t' & _ & -> & S1 & B1 & _)]; cbn [snd]; [auto|split; eauto 6].
    + unfold t_begin. destruct Hb as (B1 & B2). rewrite B1. destruct (Z.of_nat k =? -1)%Z eqn:E; [lia|]. cbn [negb snd]. split; [exact Hs|]. right. exists l, m, k. split; auto.
  - destruct IH as [Hs Hi]. destruct Hi as [(I1 & _)|(l & m & k & Hb)]; [contradiction|].
    destruct (next_busy root t l m k Hs Hb) as [N1 N2]. destruct (Nat.lt_ge_cases (S k) (length l)) as [Hlt|Hge].
    + destruct (N1 Hlt) as (q & _ & t' & -> & S1 & B1 & _). cbn [snd]. split; eauto 6.
    + destruct (N2 Hge) as (t' & -> & S1 & I1 & _). cbn [snd]. auto.
  - destruct IH as [Hs Hi]. destruct Hi as [(I1 & I2 & I3)|(l & m & k & B1 & B2 & B3 & B4)].
    + unfold t_end. rewrite I1. cbn [Z.eqb]. split; [exact Hs|left; repeat split; assumption].
    + destruct (end_idle root t l m k Hs B1 B2 B3) as (S1 & I1 & _). auto.
Qed.
