(* C44: groups follow their particles. *)
From Verif Require Import Lib Model_Store Spec_Store Proofs_Store1 Proofs_Store2 Proofs_Store3 Proofs_Store4 Proofs_Store5
  Proofs_Store6 Properties_Store Model_Group Spec_Group Proofs_Group.
From Coq Require Import Permutation ZifyBool ZifyNat.
Local Open Scope Z_scope.

(* A group made by adding particles of the store, then any history of calls on the store (adds, removals, sorts, ...) and
   updates of the group: the next update holds exactly the members that are alive at that moment, in the order in which they
   were added, each with its present address. *)
Theorem C44_group_follows_particles (dims nev nes nei : nat) (s0 s : store) (ids : list Z) (g : group) :
  reach_ids (empty_store dims nev nes nei) s0 -> (forall id, In id ids -> lives s0 id) ->
  history (s0, made_of ids) (s, g) ->
  exists g', update_local_ids s g = Some g' /\ holds s g' (filter (livesb s) ids).
Proof.
  intros Hr Hl H. destruct (empty_inv dims nev nes nei) as [I0 H0]. destruct (reach_ids_inv _ _ I0 H0 Hr) as [I Hid].
  destruct (made_of_spec ids) as (E1 & E2 & E3). replace (filter (livesb s) ids) with (filter (livesb s) (g_gids (made_of ids))) by now rewrite E1.
  apply (history_update s0 (made_of ids) s g H I Hid E3); [unfold paired; congruence|].
  rewrite E1. intros k Hk. apply lives_lt; auto.
Qed.
Print Assumptions C44_group_follows_particles.

(* What livesb tests *)
Theorem C44_lives (s : store) (id : Z) :
  livesb s id = true <-> exists l p, (l < st_size s)%nat /\ nth_error (st_mem s) l = Some p /\ 0 <= p_type p /\ p_gid p = id.
Proof.
  rewrite livesb_spec. unfold lives, lives_at, at_, alive. split.
  - intros (l & p & (H1 & H2) & H3 & H4). exists l, p. auto.
  - intros (l & p & H1 & H2 & H3 & H4). exists l, p. auto.
Qed.
Print Assumptions C44_lives.

(* An update asks about every member and never leaves the id lists, for any store at all: the two lists always have the same
   length, whatever sequence of adds, updates, shifts and copies made the group. *)
Inductive group_op := GAdd (id : Z) | GUpdate (s : store) | GShift (k : Z) | GCopy.
Definition group_step (o : group_op) (g : group) : option group :=
  match o with GAdd id => Some (group_add id g) | GUpdate s => update_local_ids s g | GShift k => Some (group_shift k g) | GCopy => Some (group_copy g) end.
Fixpoint group_run (l : list group_op) (g : group) : option group :=
  match l with [] => Some g | o :: l' => match group_step o g with Some g' => group_run l' g' | None => None end end.
Theorem C44_group_calls_safe (l : list group_op) : exists g, group_run l group_of_gflow = Some g /\ length (g_lids g) = group_size g.
Proof.
  assert (H : forall l g, g_bound g = true -> paired g -> exists g', group_run l g = Some g' /\ paired g').
  { induction l0 as [|o l0 IH]; intros g Hb Hp; cbn; [eauto|].
    destruct o as [id|s|k|]; cbn [group_step].
    - apply IH; [exact Hb|]. unfold paired in *. cbn. rewrite !app_length. cbn. lia.
    - rewrite update_spec by auto. apply IH; [reflexivity|]. unfold paired. cbn. apply map_length.
    - apply IH; [exact Hb|]. unfold paired in *. cbn. rewrite map_length. exact Hp.
    - apply IH; [exact Hb|exact Hp]. }
  destruct (H l group_of_gflow eq_refl eq_refl) as (g & E & Hp). exists g. split; [exact E|exact Hp].
Qed.
Print Assumptions C44_group_calls_safe.

(* The correction of the ids by the creator, store and group together: afterwards an update finds the same particles. *)
Theorem C44_creator_correction (dims nev nes nei : nat) (s : store) (ids : list Z) (rank : nat) (sizes : list nat) :
  reach_ids (empty_store dims nev nes nei) s -> (forall id, In id ids -> lives s id) ->
  exists g, update_local_ids (correct_global_ids rank sizes s) (correct_group rank sizes (made_of ids)) = Some g /\
    g_gids g = map (fun id => id + (if (0 <? rank)%nat then Z.of_nat (fold_right Nat.add 0%nat (firstn rank sizes)) else 0)) ids /\
    Forall2 (fun id lid => exists l, lid = Z.of_nat l /\ lives_at s id l) ids (g_lids g).
Proof.
  intros Hr Hl. pose proof (C02_lookup_exact_partial _ _ _ _ _ Hr) as He. destruct (made_of_spec ids) as (E1 & E2 & E3).
  assert (Hloc : forall id, In id ids -> exists l, getLocalID id s = Z.of_nat l /\ lives_at s id l).
  { intros id Hin. destruct (Hl id Hin) as [l Hll]. exists l. split; [|exact Hll]. destruct (He id l) as [H1 _]. now apply H1. }
  set (k := if (0 <? rank)%nat then Z.of_nat (fold_right Nat.add 0%nat (firstn rank sizes)) else 0).
  assert (Hshift : forall id, getLocalID (id + k) (correct_global_ids rank sizes s) = getLocalID id s).
  { intros id. unfold getLocalID, correct_global_ids, k. destruct (0 <? rank)%nat; cbn; [unfold map_shift; rewrite Z.add_simpl_r|rewrite Z.add_0_r]; reflexivity. }
  assert (Hg : g_gids (correct_group rank sizes (made_of ids)) = map (fun id => id + k) ids /\ g_lids (correct_group rank sizes (made_of ids)) = ids /\ g_bound (correct_group rank sizes (made_of ids)) = true).
  { unfold correct_group, k. destruct (0 <? rank)%nat; cbn; [rewrite E1; auto|]. rewrite E1, E2, E3. split; [|auto].
    rewrite <- (map_id ids) at 1. apply map_ext. intros; lia. }
  destruct Hg as (G1 & G2 & G3). rewrite update_spec; [|exact G3|unfold paired; rewrite G1, G2, map_length; reflexivity].
  rewrite G1. assert (Hf : filter (fun j => -1 <? getLocalID j (correct_global_ids rank sizes s)) (map (fun id => id + k) ids) = map (fun id => id + k) ids).
  { apply filter_all. intros a Ha. apply in_map_iff in Ha as (id & <- & Hin). rewrite Hshift. destruct (Hloc id Hin) as (l & -> & _). lia. }
  rewrite Hf. eexists. split; [reflexivity|]. cbn [g_gids g_lids]. split; [reflexivity|].
  rewrite map_map. clear - Hloc Hshift. induction ids as [|a ids IH]; cbn; constructor; [rewrite Hshift; apply Hloc; now left|].
  apply IH. intros; apply Hloc; now right.
Qed.
Print Assumptions C44_creator_correction.

(* Bodies and modifiers update their group only if the store says it needs a remake. A call after which the flag is not set
   leaves every particle that is still alive at its address, so that the old local ids of living members stay right. *)
Theorem C44_flag_covers_moves (dims nev nes nei : nat) (s s' : store) (o : op) :
  reach_ids (empty_store dims nev nes nei) s -> id_op o -> allowed s o -> step o s = Some s' -> st_remake s' = false ->
  forall id l, lives_at s id l -> lives s' id -> lives_at s' id l.
Proof.
  intros Hr Hop Hal E Hf. destruct (empty_inv dims nev nes nei) as [I0 H0]. destruct (reach_ids_inv _ _ I0 H0 Hr) as [I Hid].
  exact (step_addr o s s' I Hid Hop Hal E Hf).
Qed.
Print Assumptions C44_flag_covers_moves.

(* So a group that is updated once, and later only when the flag asks for it, has the right local id for each of its members that is
   alive, and none of them is lost. *)
Theorem C44_lazy_updates_partial (dims nev nes nei : nat) (s0 s : store) (ids : list Z) (g0 g : group) :
  reach_ids (empty_store dims nev nes nei) s0 -> (forall id, In id ids -> lives s0 id) ->
  update_local_ids s0 (made_of ids) = Some g0 -> lazily (s0, g0) (s, g) ->
  (forall id, In id ids -> lives s id -> In id (g_gids g)) /\ Forall2 (fun gid lid => forall l, lives_at s gid l -> lid = Z.of_nat l) (g_gids g) (g_lids g).
Proof.
  intros Hr Hl Eu H. destruct (empty_inv dims nev nes nei) as [I0 H0]. destruct (reach_ids_inv _ _ I0 H0 Hr) as [I Hid].
  destruct (made_of_spec ids) as (E1 & E2 & E3). pose proof (exact_of_ids _ (idi_ok _ Hid)) as He.
  destruct (update_holds s0 (made_of ids) He E3 ltac:(unfold paired; congruence)) as (g1 & Eu1 & [Hg Hf] & Hb & Hp). rewrite Eu in Eu1. injection Eu1 as <-.
  rewrite E1 in Hg. assert (Eg : g_gids g0 = ids) by (rewrite Hg; apply filter_all; intros a Ha; apply livesb_spec; auto).
  destruct (lazily_inv s0 g0 s g H I Hid Hb Hp) as (_ & _ & _ & _ & _ & _ & R1 & R2).
  - rewrite Eg. intros k Hk. apply lives_lt; auto.
  - rewrite Hg. rewrite E1 in Hf. eapply Forall2_weaken; [|exact Hf]. intros gid lid (l & -> & Hlv) l' Hl'. f_equal. eapply lives_unique; eauto.
  - rewrite Eg in R1. split; [exact R1|exact R2].
Qed.
Print Assumptions C44_lazy_updates_partial.

(* But the flag does not tell of members that are gone: removing the last particle of the store does not set it, and the group
   keeps a member that does not exist any more, with a local id beyond the size of the store. *)
Theorem C44_flag_misses_removal_refuted : exists s0 g0 s g,
  run [OpAddMany 3 true] ex_empty = Some s0 /\ update_local_ids s0 (made_of [0; 2]) = Some g0 /\
  run [OpMark 2; OpRemove] s0 = Some s /\ update_if_needed s g0 = Some g /\
  g_gids g = [0; 2] /\ ~ lives s 2 /\ g_lids g = [0; 2] /\ st_size s = 2%nat.
Proof.
  eexists. eexists. eexists. eexists. split; [vm_compute; reflexivity|]. split; [vm_compute; reflexivity|]. split; [vm_compute; reflexivity|].
  split; [vm_compute; reflexivity|]. split; [reflexivity|]. split; [|split; reflexivity].
  intros H. apply livesb_spec in H. vm_compute in H. discriminate.
Qed.
Print Assumptions C44_flag_misses_removal_refuted.

(* Until the first update the local ids are the global ids: the second particle of this store is at address 1, the group says 2. *)
Theorem C44_before_update_refuted : exists s, run [ex_add 1 1; ex_add 2 2] ex_empty = Some s /\
  lives_at s 2 1 /\ group_at 0 (made_of [2]) = Some 2 /\ st_size s = 2%nat.
Proof.
  eexists. split; [vm_compute; reflexivity|]. split; [|split; reflexivity].
  eexists. split; [split; [|vm_compute; reflexivity]; cbn; lia|]. split; [unfold alive; cbn; lia|reflexivity].
Qed.
Print Assumptions C44_before_update_refuted.

(* A group constructed from a store (as in the polymer creator) does not keep the store: the first update with a member follows a
   null pointer. *)
Theorem C44_store_constructor_refuted (s : store) (id : Z) : update_local_ids s (group_add id group_of_store) = None.
Proof. reflexivity. Qed.
Print Assumptions C44_store_constructor_refuted.

(* The i-th member and its local id: an exception (None) outside of the group. *)
Theorem C44_at (i : Z) (g : group) :
  group_at i g = (if (0 <=? i) && (i <? Z.of_nat (length (g_lids g))) then nth_error (g_lids g) (Z.to_nat i) else None) /\
  group_g_at i g = (if (0 <=? i) && (i <? Z.of_nat (length (g_gids g))) then nth_error (g_gids g) (Z.to_nat i) else None).
Proof.
  assert (H : forall l, zat i l = if (0 <=? i) && (i <? Z.of_nat (length l)) then nth_error l (Z.to_nat i) else None).
  { intros l. unfold zat. destruct (Z.ltb_spec i 0); destruct (Z.leb_spec 0 i); try lia; cbn [andb]; [reflexivity|].
    destruct (Z.ltb_spec i (Z.of_nat (length l))); [reflexivity|]. apply nth_error_None. lia. }
  split; apply H.
Qed.
Print Assumptions C44_at.

(* Looking up a member by local id *)
Theorem C44_index (id : Z) (g : group) :
  (contains id g = true <-> In id (g_lids g)) /\
  (contains id g = false <-> getIndex id g = -1) /\
  (contains id g = true -> exists i, getIndex id g = Z.of_nat i /\ group_at (Z.of_nat i) g = Some id /\
     forall j, (j < i)%nat -> group_at (Z.of_nat j) g <> Some id).
Proof.
  assert (Hc : contains id g = true <-> In id (g_lids g)).
  { unfold contains. rewrite existsb_exists. split; [intros (a & Ha & E); assert (a = id) by lia; now subst|intros H; exists id; split; [exact H|lia]]. }
  assert (Hf : forall l i, 0 <= i -> (~ In id l /\ find_from id l i = -1) \/ exists k, find_from id l i = i + Z.of_nat k /\ nth_error l k = Some id /\ forall j, (j < k)%nat -> nth_error l j <> Some id).
  { induction l as [|a l IH]; intros i Hi; cbn; [left; auto|]. destruct (Z.eqb_spec a id) as [->|Hne].
    - right. exists 0%nat. split; [lia|]. split; [reflexivity|]. intros; lia.
    - destruct (IH (i + 1) ltac:(lia)) as [[H1 H2]|(k & H1 & H2 & H3)].
      + left. split; [intros [?|?]; contradiction|exact H2].
      + right. exists (S k). split; [lia|]. split; [exact H2|]. intros [|j] Hj; cbn; [congruence|apply H3; lia]. }
  split; [exact Hc|]. unfold getIndex, group_at, zat. destruct (Hf (g_lids g) 0 ltac:(lia)) as [[H1 H2]|(k & H1 & H2 & H3)].
  - assert (contains id g = false) by (destruct (contains id g) eqn:E; [exfalso; apply H1, Hc; reflexivity|reflexivity]).
    split; [rewrite H2; tauto|intros; congruence].
  - assert (contains id g = true) by (apply Hc; eapply nth_error_In; eauto).
    split; [split; intros; [congruence|lia]|]. intros _. exists k. split; [lia|].
    destruct (Z.ltb_spec (Z.of_nat k) 0); [lia|]. rewrite Nat2Z.id. split; [exact H2|]. intros j Hj.
    destruct (Z.ltb_spec (Z.of_nat j) 0); [lia|]. rewrite Nat2Z.id. auto.
Qed.
Print Assumptions C44_index.

(* Five particles (ids 0,2,4,6,8), a group of three of them out of order; one is removed, an update, a sort, two more are added. *)
Definition ex_five : list op := [ex_add 5 0; ex_add 4 0; ex_add 3 0; ex_add 2 0; ex_add 1 0].
Example C44_case : exists s0 s g, run ex_five ex_empty = Some s0 /\ (forall id, In id [8; 2; 4] -> lives s0 id) /\
  history (s0, made_of [8; 2; 4]) (s, g) /\
  exists g', update_local_ids s g = Some g' /\ g_gids g' = [8; 4] /\ g_lids g' = [0; 2].
Proof.
  destruct (run ex_five ex_empty) as [s0|] eqn:E0; [|vm_compute in E0; discriminate].
  destruct (run [OpMark 1; OpRemove] s0) as [s1|] eqn:E1; [|vm_compute in E0; injection E0 as <-; vm_compute in E1; discriminate].
  destruct (update_local_ids s1 (made_of [8; 2; 4])) as [g1|] eqn:Eg; [|vm_compute in E0; injection E0 as <-; vm_compute in E1; injection E1 as <-; vm_compute in Eg; discriminate].
  destruct (run [OpSortAlong; ex_add 9 9; ex_add 8 8] s1) as [s2|] eqn:E2; [|vm_compute in E0; injection E0 as <-; vm_compute in E1; injection E1 as <-; vm_compute in E2; discriminate].
  exists s0, s2, g1. split; [reflexivity|].
  vm_compute in E0. injection E0 as <-. split.
  { intros id Hin. apply livesb_spec. destruct Hin as [<-|[<-|[<-|[]]]]; vm_compute; reflexivity. }
  cbn [run] in E1. match type of E1 with match ?x with _ => _ end = _ => destruct x as [t1|] eqn:S1; [|discriminate] end.
  match type of E1 with match ?x with _ => _ end = _ => destruct x as [t2|] eqn:S2; [|discriminate] end. injection E1 as <-.
  cbn [run] in E2. match type of E2 with match ?x with _ => _ end = _ => destruct x as [t3|] eqn:S3; [|discriminate] end.
  match type of E2 with match ?x with _ => _ end = _ => destruct x as [t4|] eqn:S4; [|discriminate] end.
  match type of E2 with match ?x with _ => _ end = _ => destruct x as [t5|] eqn:S5; [|discriminate] end. injection E2 as <-.
  split.
  - eapply hist_store with (o := ex_add 8 8); [|exact I|cbn; lia|exact S5].
    eapply hist_store with (o := ex_add 9 9); [|exact I|cbn; lia|exact S4].
    eapply hist_store with (o := OpSortAlong); [|exact I| |exact S3].
    2:{ left. clear - S1 S2. vm_compute in S1. injection S1 as <-. vm_compute in S2. injection S2 as <-. reflexivity. }
    eapply hist_update; [|exact Eg].
    eapply hist_store with (o := OpRemove); [|exact I| |exact S2].
    2:{ right. clear - S1. vm_compute in S1. injection S1 as <-. vm_compute. reflexivity. }
    eapply hist_store with (o := OpMark 1); [|exact I| |exact S1]; [apply hist_nil|vm_compute; split; congruence].
  - vm_compute in S1. injection S1 as <-. vm_compute in S2. injection S2 as <-. vm_compute in Eg. injection Eg as <-.
    vm_compute in S3. injection S3 as <-. vm_compute in S4. injection S4 as <-. vm_compute in S5. injection S5 as <-.
    eexists. split; [vm_compute; reflexivity|]. split; reflexivity.
Qed.
