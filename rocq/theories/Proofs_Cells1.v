(* Addressing, stencil symmetry, index correction. *)
From Verif Require Import Lib Model_Geometry Model_Cells Proofs_Geometry.
From Coq Require Import ZifyBool ZifyNat FinFun.
Ltac Zify.zify_post_hook ::= Z.div_mod_to_equations.
Local Open Scope Z_scope.

Arguments Z.mul : simpl never.
Arguments Z.add : simpl never.
Arguments Z.sub : simpl never.
Arguments Z.opp : simpl never.

Definition in_range (dims t : list Z) : Prop := Forall2 (fun d i => 0 <= i < d) dims t.

Lemma prodZ_pos dims : Forall (fun d => 0 < d) dims -> 0 < prodZ dims.
Proof. induction 1; simpl; nia. Qed.

Lemma in_range_pos dims t : in_range dims t -> Forall (fun d => 0 < d) dims.
Proof. induction 1; constructor; auto; lia. Qed.

Lemma linear_bound dims t : in_range dims t -> 0 <= tuple_to_linear dims t < prodZ dims.
Proof. induction 1; simpl; nia. Qed.

Lemma quot_rem_unique a b q r : 0 <= r < b -> 0 <= q -> a = q * b + r ->
  Z.quot a b = q /\ Z.rem a b = r.
Proof.
  intros Hr Hq ->. assert (0 < b) by lia. assert (0 <= q * b) by nia.
  rewrite Z.quot_div_nonneg, Z.rem_mod_nonneg by lia.
  rewrite Z.div_add_l by lia. rewrite (Z.add_comm (q * b)), Z.mod_add by lia.
  rewrite Z.div_small, Z.mod_small by lia. lia.
Qed.

Lemma address_of_linear dims t : in_range dims t -> getAddressCM (tuple_to_linear dims t) dims = t.
Proof.
  induction 1 as [|d i dims t Hi Ht IH]; [reflexivity|].
  cbn [tuple_to_linear getAddressCM]. pose proof (linear_bound dims t Ht).
  destruct (quot_rem_unique (i * prodZ dims + tuple_to_linear dims t) (prodZ dims) i
              (tuple_to_linear dims t)) as [-> ->]; auto; [lia|]. now rewrite IH.
Qed.

Lemma linear_of_address dims : Forall (fun d => 0 < d) dims -> forall l, 0 <= l < prodZ dims ->
  in_range dims (getAddressCM l dims) /\ tuple_to_linear dims (getAddressCM l dims) = l.
Proof.
  induction 1 as [|d dims Hd Hds IH]; intros l Hl; simpl in *.
  - split; [constructor|lia].
  - pose proof (prodZ_pos dims Hds) as Hp.
    rewrite Z.quot_div_nonneg, Z.rem_mod_nonneg by lia.
    destruct (IH (l mod prodZ dims)) as [IH1 IH2]; [apply Z.mod_pos_bound; lia|].
    split.
    + constructor; [|exact IH1]. split; [apply Z.div_pos; lia|]. apply Z.div_lt_upper_bound; lia.
    + rewrite IH2. pose proof (Z.div_mod l (prodZ dims)). lia.
Qed.

Lemma linear_injective dims t t' : in_range dims t -> in_range dims t' ->
  tuple_to_linear dims t = tuple_to_linear dims t' -> t = t'.
Proof.
  intros H H' E. rewrite <- (address_of_linear dims t H), <- (address_of_linear dims t' H'). now rewrite E.
Qed.

Lemma getAddress_rev_eq l ds : getAddress_rev l ds = getAddressCM l ds.
Proof. revert l. induction ds; intros; simpl; [reflexivity|]. now rewrite IHds. Qed.

Lemma in_range_length dims t : in_range dims t -> length t = length dims.
Proof. induction 1; simpl; auto. Qed.

Lemma in_range_rev dims t : in_range dims t -> in_range (rev dims) (rev t).
Proof.
  induction 1 as [|d i dims t Hi Ht IH]; simpl; [constructor|].
  apply Forall2_app; [exact IH|repeat constructor; lia].
Qed.

(* ---------------------------------------------------------------- zrange *)
Lemma in_zrange n i : In i (zrange n) <-> 0 <= i < n.
Proof.
  unfold zrange. rewrite in_map_iff. split.
  - intros (k & <- & Hk). apply in_seq in Hk. lia.
  - intros H. exists (Z.to_nat i). split; [lia|]. apply in_seq. lia.
Qed.

Lemma NoDup_zrange n : NoDup (zrange n).
Proof.
  unfold zrange. apply FinFun.Injective_map_NoDup; [|apply seq_NoDup]. intros a b; lia.
Qed.

Lemma zrange_length n : length (zrange n) = Z.to_nat n.
Proof. unfold zrange. now rewrite map_length, seq_length. Qed.

Lemma zrange_firstn h n : 0 <= h <= n -> firstn (Z.to_nat h) (zrange n) = zrange h.
Proof.
  intros H. unfold zrange. rewrite firstn_map. f_equal.
  replace (Z.to_nat n) with (Z.to_nat h + (Z.to_nat n - Z.to_nat h))%nat by lia.
  rewrite seq_app, firstn_app, seq_length, Nat.sub_diag. simpl.
  rewrite app_nil_r. rewrite firstn_all2; [reflexivity|rewrite seq_length; lia].
Qed.

(* ---------------------------------------------------------------- stencil symmetry *)
Definition within_s (ss o : list Z) : Prop := Forall2 (fun s i => - s <= i <= s) ss o.
Definition odd_dims (ss : list Z) : list Z := map (fun s => 2 * s + 1) ss.
Definition zneg (o : list Z) : list Z := map Z.opp o.

Lemma zadd_range ss o : within_s ss o -> in_range (odd_dims ss) (zadd ss o).
Proof. unfold zadd. induction 1; simpl; constructor; auto. simpl; lia. Qed.

Lemma within_neg ss o : within_s ss o -> within_s ss (zneg o).
Proof. induction 1; simpl; constructor; auto. lia. Qed.

Lemma linear_symmetric ss o : within_s ss o ->
  tuple_to_linear (odd_dims ss) (zadd ss o) + tuple_to_linear (odd_dims ss) (zadd ss (zneg o))
  = prodZ (odd_dims ss) - 1.
Proof. unfold zadd, zneg. induction 1; simpl; [reflexivity|]. simpl in *. nia. Qed.

Lemma zadd_inj ss o o' : length o = length ss -> length o' = length ss ->
  zadd ss o = zadd ss o' -> o = o'.
Proof.
  unfold zadd. revert o o'. induction ss as [|s ss IH]; intros [|x o] [|y o']; simpl; intros Hl Hl' E;
    try discriminate; auto.
  injection E as E1 E2. f_equal; [lia|]. apply IH; auto.
Qed.

Lemma zsub_zadd ss t : length t = length ss -> zsub (zadd ss t) ss = t.
Proof.
  unfold zsub, zadd. revert t. induction ss as [|s ss IH]; intros [|x t]; simpl; intros Hl; try discriminate; auto.
  f_equal; [lia|auto].
Qed.

Lemma zadd_zsub ss t : length t = length ss -> zadd ss (zsub t ss) = t.
Proof.
  unfold zsub, zadd. revert t. induction ss as [|s ss IH]; intros [|x t]; simpl; intros Hl; try discriminate; auto.
  f_equal; [lia|auto].
Qed.

Definition zeros (n : nat) : list Z := repeat 0 n.

Lemma zneg_zero_of ss o : within_s ss o -> zneg o = o -> o = zeros (length ss).
Proof.
  induction 1; simpl; intros E; [reflexivity|]. injection E as E1 E2. unfold zeros in *. simpl. f_equal; [lia|auto].
Qed.

Lemma odd_dims_odd ss : Forall (fun s => 0 <= s) ss -> exists h, prodZ (odd_dims ss) = 2 * h + 1 /\ 0 <= h.
Proof.
  induction 1 as [|s ss Hs Hss (h & E & Hh)]; simpl.
  - exists 0. lia.
  - rewrite E. exists (s * (2 * h + 1) + h). nia.
Qed.

Lemma within_s_nonneg ss o : within_s ss o -> Forall (fun s => 0 <= s) ss.
Proof. induction 1; constructor; auto; lia. Qed.

Lemma within_s_length ss o : within_s ss o -> length o = length ss.
Proof. induction 1; simpl; auto. Qed.

Lemma zneg_length o : length (zneg o) = length o.
Proof. unfold zneg. now rewrite map_length. Qed.

Lemma zneg_zneg o : zneg (zneg o) = o.
Proof. unfold zneg. rewrite map_map. rewrite <- (map_id o) at 2. apply map_ext. intros; lia. Qed.

Definition oidx (ss o : list Z) : Z := tuple_to_linear (odd_dims ss) (zadd ss o).
Definition half_of (ss : list Z) : Z := prodZ (odd_dims ss) / 2.

Lemma oidx_trichotomy ss o : within_s ss o ->
  (oidx ss o < half_of ss /\ ~ oidx ss (zneg o) < half_of ss /\ o <> zeros (length ss)) \/
  (oidx ss (zneg o) < half_of ss /\ ~ oidx ss o < half_of ss /\ o <> zeros (length ss)) \/
  (o = zeros (length ss) /\ oidx ss o = half_of ss).
Proof.
  intros H. pose proof (linear_symmetric ss o H) as E. fold (oidx ss o) (oidx ss (zneg o)) in E.
  destruct (odd_dims_odd ss (within_s_nonneg ss o H)) as (h & Eh & Hh).
  assert (Hhalf : half_of ss = h) by (unfold half_of; lia).
  assert (Hz : o = zeros (length ss) -> oidx ss o = oidx ss (zneg o)).
  { intros Ho. f_equal. rewrite Ho. unfold zneg, zeros. generalize (length ss). induction n as [|n IHn]; simpl; [reflexivity|f_equal; exact IHn]. }
  assert (Hlt : oidx ss o < h \/ oidx ss (zneg o) < h \/ oidx ss o = oidx ss (zneg o)) by lia.
  destruct Hlt as [Hl|[Hl|He]].
  - left. split; [lia|]. split; [lia|]. intros Ho. specialize (Hz Ho). lia.
  - right; left. split; [lia|]. split; [lia|]. intros Ho. specialize (Hz Ho). lia.
  - right; right. split; [|lia]. apply zneg_zero_of; [exact H|].
    pose proof (within_neg ss o H) as Hn.
    unfold oidx in He. apply linear_injective in He; try (now apply zadd_range).
    apply zadd_inj in He; rewrite ?zneg_length; try (now apply within_s_length); congruence.
Qed.

Lemma offset_of_oidx ss o : within_s ss o ->
  zsub (getAddressCM (oidx ss o) (odd_dims ss)) ss = o.
Proof.
  intros H. unfold oidx. rewrite address_of_linear by (now apply zadd_range).
  apply zsub_zadd. now apply within_s_length.
Qed.

Lemma oidx_bound ss o : within_s ss o -> 0 <= oidx ss o < prodZ (odd_dims ss).
Proof. intros. apply linear_bound. now apply zadd_range. Qed.

Lemma offset_within ss i : Forall (fun s => 0 <= s) ss -> 0 <= i < prodZ (odd_dims ss) ->
  within_s ss (zsub (getAddressCM i (odd_dims ss)) ss) /\
  oidx ss (zsub (getAddressCM i (odd_dims ss)) ss) = i.
Proof.
  intros Hs Hi.
  destruct (linear_of_address (odd_dims ss)) with (l := i) as [H1 H2]; auto.
  { unfold odd_dims. apply Forall_map. eapply Forall_impl; [|exact Hs]. simpl; intros; lia. }
  pose proof (in_range_length _ _ H1) as Hl. unfold odd_dims in Hl at 2. rewrite map_length in Hl.
  split.
  - clear H2 Hi. revert H1 Hl. generalize (getAddressCM i (odd_dims ss)) as t. intros t.
    unfold odd_dims, zsub. clear i. revert t.
    induction ss as [|s ss IH]; intros [|x t] H1 Hl; simpl in *; try discriminate; constructor.
    + inversion H1; subst. simpl; lia.
    + inversion H1; subst. inversion Hs; subst. apply IH; auto.
  - unfold oidx. rewrite zadd_zsub by exact Hl. exact H2.
Qed.

(* ---------------------------------------------------------------- index correction *)
(* single-processor axis: no halo cells *)
Definition plain (g : gaxis) : Prop := gup g = 0 /\ gdown g = 0 /\ 0 < gdim g.

Lemma correct1_spec g i j : plain g -> - gdim g <= i < 2 * gdim g ->
  (correct1 g i = Some j <->
   0 <= j < gdim g /\ (j = i \/ (gbc g = WRAP /\ (j = i + gdim g \/ j = i - gdim g)))).
Proof.
  intros (Hu & Hd & Hp) Hi. unfold correct1. rewrite Hu, Hd. simpl.
  destruct (bc_eqb_spec (gbc g) WRAP) as [E|E]; simpl;
  destruct (Z.leb_spec (gdim g) i); simpl;
  repeat match goal with |- context [?a <? ?b] => destruct (Z.ltb_spec a b); simpl end;
  try rewrite andb_false_r; try rewrite andb_true_r; simpl;
  split; intros K; try discriminate; try (injection K as <-); try lia;
  try (f_equal; destruct K as [? [?|[? [?|?]]]]; try lia; congruence);
  try (exfalso; destruct K as [? [?|[? [?|?]]]]; try lia; congruence);
  (split; [lia|right; split; [exact E|lia]]).
Qed.

(* s: sweep of the axis *)
Definition sweep_ok (g : gaxis) (s : Z) : Prop :=
  plain g /\ 0 <= s /\ (gbc g = WRAP -> 2 * s + 1 <= gdim g).

(* On a non-periodic axis the sweep can be larger than the grid; then correct1 still works: *)
Lemma correct1_nowrap g i : plain g -> gbc g <> WRAP ->
  correct1 g i = (if (0 <=? i) && (i <? gdim g) then Some i else None).
Proof.
  intros (Hu & Hd & Hp) E. unfold correct1. rewrite Hu, Hd. 
  destruct (bc_eqb_spec (gbc g) WRAP) as [E'|_]; [congruence|]. simpl.
  destruct (Z.leb_spec (gdim g) i); simpl;
  repeat match goal with |- context [?a <? ?b] => destruct (Z.ltb_spec a b); simpl end;
  repeat match goal with |- context [?a <=? ?b] => destruct (Z.leb_spec a b); simpl end; 
  try reflexivity; lia.
Qed.

Lemma correct1_range g s i o j : sweep_ok g s -> 0 <= i < gdim g -> - s <= o <= s ->
  correct1 g (i + o) = Some j -> 0 <= j < gdim g.
Proof.
  intros (Hp & Hs & Hw) Hi Ho H. destruct (bc_eqb_spec (gbc g) WRAP) as [E|E].
  - specialize (Hw E). apply correct1_spec in H; auto; lia.
  - rewrite correct1_nowrap in H by assumption.
    destruct (Z.leb_spec 0 (i + o)); destruct (Z.ltb_spec (i + o) (gdim g)); simpl in H; try discriminate.
    injection H as <-. lia.
Qed.

Lemma correct1_inverse g s i o j : sweep_ok g s -> 0 <= i < gdim g -> - s <= o <= s ->
  correct1 g (i + o) = Some j -> correct1 g (j + - o) = Some i.
Proof.
  intros Hok Hi Ho H. pose proof (correct1_range g s i o j Hok Hi Ho H) as Hj.
  destruct Hok as (Hp & Hs & Hw). destruct (bc_eqb_spec (gbc g) WRAP) as [E|E].
  - specialize (Hw E). apply correct1_spec in H; auto; [|lia]. apply correct1_spec; auto; [lia|].
    split; [lia|]. destruct H as [_ [H|[_ [H|H]]]]; [left; lia|right; split; [exact E|lia]..].
  - rewrite correct1_nowrap in * by assumption.
    destruct (Z.leb_spec 0 (i + o)); destruct (Z.ltb_spec (i + o) (gdim g)); simpl in H; try discriminate.
    injection H as <-. replace (i + o + - o) with i by lia.
    destruct (Z.leb_spec 0 i); destruct (Z.ltb_spec i (gdim g)); simpl; try reflexivity; lia.
Qed.

Lemma correct1_unique g s i o o' j : sweep_ok g s -> 0 <= i < gdim g -> - s <= o <= s -> - s <= o' <= s ->
  correct1 g (i + o) = Some j -> correct1 g (i + o') = Some j -> o = o'.
Proof.
  intros (Hp & Hs & Hw) Hi Ho Ho' H H'. destruct (bc_eqb_spec (gbc g) WRAP) as [E|E].
  - specialize (Hw E). apply correct1_spec in H; auto; [|lia]. apply correct1_spec in H'; auto; lia.
  - rewrite correct1_nowrap in * by assumption.
    destruct (Z.leb_spec 0 (i + o)); destruct (Z.ltb_spec (i + o) (gdim g)); simpl in H; try discriminate.
    destruct (Z.leb_spec 0 (i + o')); destruct (Z.ltb_spec (i + o') (gdim g)); simpl in H'; try discriminate.
    injection H as <-. injection H' as H'. lia.
Qed.

Lemma correct1_zero g s i : sweep_ok g s -> 0 <= i < gdim g -> correct1 g (i + 0) = Some i.
Proof.
  intros (Hp & Hs & Hw) Hi. apply correct1_spec; auto; lia.
Qed.

(* vector versions *)
Inductive Forall3 {A B C} (P : A -> B -> C -> Prop) : list A -> list B -> list C -> Prop :=
| F3_nil : Forall3 P [] [] []
| F3_cons a b c la lb lc : P a b c -> Forall3 P la lb lc -> Forall3 P (a :: la) (b :: lb) (c :: lc).

Definition sweeps_ok (gs : list gaxis) (ss : list Z) : Prop := Forall2 sweep_ok gs ss.

Lemma correct_cons g gs i t : correct_index (g :: gs) (i :: t) =
  match correct1 g i, correct_index gs t with Some j, Some t'' => Some (j :: t'') | _, _ => None end.
Proof. reflexivity. Qed.

Lemma correct_range gs ss : sweeps_ok gs ss -> forall t o t', in_range (dims_of gs) t -> within_s ss o ->
  correct_index gs (zadd t o) = Some t' -> in_range (dims_of gs) t'.
Proof.
  induction 1 as [|g s gs ss Hg Hgs IH]; intros t o t' Ht Ho H.
  - simpl in H. injection H as <-. constructor.
  - inversion Ht as [|? i ? t0 Hi Ht0]; subst. inversion Ho as [|? k ? o0 Hk Ho0]; subst.
    change (zadd (i :: t0) (k :: o0)) with (i + k :: zadd t0 o0) in H. rewrite correct_cons in H.
    destruct (correct1 g (i + k)) as [j|] eqn:E1; [|discriminate].
    destruct (correct_index gs (zadd t0 o0)) as [t1|] eqn:E2; [|discriminate].
    injection H as <-. constructor; [eapply correct1_range; eauto|eapply IH; eauto].
Qed.

Lemma correct_inverse gs ss : sweeps_ok gs ss -> forall t o t', in_range (dims_of gs) t -> within_s ss o ->
  correct_index gs (zadd t o) = Some t' -> correct_index gs (zadd t' (zneg o)) = Some t.
Proof.
  induction 1 as [|g s gs ss Hg Hgs IH]; intros t o t' Ht Ho H.
  - inversion Ht; subst. inversion Ho; subst. simpl in H. injection H as <-. reflexivity.
  - inversion Ht as [|? i ? t0 Hi Ht0]; subst. inversion Ho as [|? k ? o0 Hk Ho0]; subst.
    change (zadd (i :: t0) (k :: o0)) with (i + k :: zadd t0 o0) in H. rewrite correct_cons in H.
    destruct (correct1 g (i + k)) as [j|] eqn:E1; [|discriminate].
    destruct (correct_index gs (zadd t0 o0)) as [t1|] eqn:E2; [|discriminate].
    injection H as <-.
    change (zadd (j :: t1) (zneg (k :: o0))) with (j + - k :: zadd t1 (zneg o0)). rewrite correct_cons.
    rewrite (correct1_inverse g s i k j Hg Hi Hk E1). rewrite (IH t0 o0 t1 Ht0 Ho0 E2). reflexivity.
Qed.

Lemma correct_unique gs ss : sweeps_ok gs ss -> forall t o o' t', in_range (dims_of gs) t ->
  within_s ss o -> within_s ss o' ->
  correct_index gs (zadd t o) = Some t' -> correct_index gs (zadd t o') = Some t' -> o = o'.
Proof.
  induction 1 as [|g s gs ss Hg Hgs IH]; intros t o o' t' Ht Ho Ho' H H'.
  - inversion Ho; inversion Ho'; reflexivity.
  - inversion Ht as [|? i ? t0 Hi Ht0]; subst. inversion Ho as [|? k ? o0 Hk Ho0]; subst.
    inversion Ho' as [|? k' ? o0' Hk' Ho0']; subst.
    change (zadd (i :: t0) (k :: o0)) with (i + k :: zadd t0 o0) in H. rewrite correct_cons in H.
    change (zadd (i :: t0) (k' :: o0')) with (i + k' :: zadd t0 o0') in H'. rewrite correct_cons in H'.
    destruct (correct1 g (i + k)) as [j|] eqn:E1; [|discriminate].
    destruct (correct_index gs (zadd t0 o0)) as [t1|] eqn:E2; [|discriminate].
    destruct (correct1 g (i + k')) as [j'|] eqn:E1'; [|discriminate].
    destruct (correct_index gs (zadd t0 o0')) as [t1'|] eqn:E2'; [|discriminate].
    injection H as <-. injection H' as -> ->. f_equal.
    + eapply correct1_unique; eauto.
    + eapply IH; eauto.
Qed.

Lemma correct_zero gs ss : sweeps_ok gs ss -> forall t, in_range (dims_of gs) t ->
  correct_index gs (zadd t (zeros (length ss))) = Some t.
Proof.
  induction 1 as [|g s gs ss Hg Hgs IH]; intros t Ht.
  - inversion Ht; reflexivity.
  - inversion Ht as [|? i ? t0 Hi Ht0]; subst.
    change (zadd (i :: t0) (zeros (length (s :: ss)))) with (i + 0 :: zadd t0 (zeros (length ss))).
    rewrite correct_cons, (correct1_zero g s i Hg Hi), (IH t0 Ht0). reflexivity.
Qed.

Lemma zeros_within ss : Forall (fun s => 0 <= s) ss -> within_s ss (zeros (length ss)).
Proof. induction 1; simpl; constructor; auto. lia. Qed.
