(* C149: the data kept with a particle stays with it; the stripe of a particle. *)
From Verif Require Import Lib Model_Store Spec_Store Model_Group Proofs_Store3 Proofs_Store4 Proofs_Store5 Proofs_Store6 Model_Stripe Spec_Stripe Proofs_Stripe Properties_Store.
From Verif Require Proofs_Group.
From Coq Require Import ZifyBool ZifyNat.
Local Open Scope Z_scope.

(* Whatever happens to the particles, adding, removing, sorting, setting of positions and so on: a particle that is still alive has the
   type and the extra vectors, scalars and integers it had. Missing: the correction of the ids (OpShift). *)
Theorem C149_data_stays_partial (dims nev nes nei : nat) (s0 s : store) (l0 l : nat) (p0 p : part) :
  reach_ids (empty_store dims nev nes nei) s0 -> reach_ids s0 s ->
  at_ s0 l0 p0 -> alive p0 -> at_ s l p -> alive p -> p_gid p = p_gid p0 ->
  p_type p = p_type p0 /\ p_evecs p = p_evecs p0 /\ p_escals p = p_escals p0 /\ p_eints p = p_eints p0.
Proof.
  intros R0 R H0 A0 H A E. destruct (empty_inv dims nev nes nei) as [I00 H00]. destruct (reach_ids_inv _ _ I00 H00 R0) as [I0 Hid0].
  assert (P0 : In p0 (particles s0)) by (apply filter_In; split; [destruct H0 as [La Na]; apply nth_error_In with (n := l0); rewrite Proofs_Store1.nth_error_firstn_lt; auto|apply aliveb_spec, A0]).
  assert (P1 : In p (particles s)) by (apply filter_In; split; [destruct H as [La Na]; apply nth_error_In with (n := l); rewrite Proofs_Store1.nth_error_firstn_lt; auto|apply aliveb_spec, A]).
  assert (G : inv s /\ idinv s /\ st_next s0 <= st_next s /\ forall q, In q (particles s) ->
     (exists q0, In q0 (particles s0) /\ p_type q = p_type q0 /\ p_gid q = p_gid q0 /\ extras q = extras q0) \/ st_next s0 <= p_gid q).
  { clear - R I0 Hid0. induction R as [|s1 o s2 R IH Hop Hal E].
    - split; [exact I0|]. split; [exact Hid0|]. split; [lia|]. intros q Hq. left. exists q. auto.
    - destruct IH as (I1 & Hid1 & N1 & D1). destruct (step_ok o s1 I1 Hal) as (s3 & E3 & I3 & Hid3). rewrite E in E3. injection E3 as <-.
      destruct (Proofs_Group.step_lives o s1 s2 I1 Hid1 Hop Hal E) as [N2 _].
      split; [exact I3|]. split; [exact (Hid3 Hop Hid1)|]. split; [lia|]. intros q Hq.
      destruct (step_data o s1 s2 I1 Hid1 Hop Hal E q Hq) as [(q1 & Hq1 & T & Eg & Ex)|(Hg & _)]; [|right; lia].
      destruct (D1 q1 Hq1) as [(q0 & Hq0 & T0 & Eg0 & Ex0)|Hg]; [left; exists q0|right; lia]. repeat split; congruence. }
  destruct G as (_ & _ & _ & G). destruct (G p P1) as [(q0 & Hq0 & T & Eg & Ex)|Hg].
  - assert (q0 = p0) by (apply (same_id s0); try assumption; congruence). subst q0. unfold extras in Ex. injection Ex as X1 X2 X3. auto.
  - pose proof (fresh_particles s0 p0 Hid0 P0). lia.
Qed.
Print Assumptions C149_data_stays_partial.

(* The stripe of every living particle is the height at which it entered: where it was when the run began, or where the tunnel put
   it; 0 if it was added otherwise. Every entry of the log about it says so, and there is one. *)
Theorem C149_stripe_is_first_height_partial (dims nev nes nei e : nat) (s : store) (log : list entry) :
  striped dims nev nes nei e s log ->
  forall l p, at_ s l p -> alive p ->
    (exists en, In en log /\ says (p_gid p) (stripe_of e p) en) /\
    forall a b h, In (a, b, h) log -> a <= p_gid p < b -> stripe_of e p = h.
Proof.
  intros H l p Hp Ha. destruct (striped_ok _ _ _ _ _ _ _ H) as (I & Hid & (_ & L)).
  assert (P : In p (particles s)) by (apply filter_In; split; [destruct Hp as [La Na]; apply nth_error_In with (n := l); rewrite Proofs_Store1.nth_error_firstn_lt; auto|apply aliveb_spec, Ha]).
  destruct (L p P) as ((en & Hen & Hc) & C). split.
  - exists en. split; [exact Hen|]. split; [exact Hc|]. symmetry. apply C; assumption.
  - intros a b h Hin Hc'. exact (C (a, b, h) Hin Hc').
Qed.
Print Assumptions C149_stripe_is_first_height_partial.

(* A run can begin, and particles can be added by the tunnel, whenever there are two dimensions and the entry is registered. *)
Theorem C149_never_fails (dims nev nes nei e : nat) (s : store) :
  reach_ids (empty_store dims nev nes nei) s -> (forall l p, at_ s l p -> (2 <= length (p_x p))%nat /\ (e < length (p_escals p))%nat) ->
  (e < st_nes s)%nat ->
  (exists s', stripe_pre e s = Some s' /\ st_size s' = st_size s /\ forall l p, at_ s l p -> exists p', at_ s' l p' /\
     p_gid p' = p_gid p /\ p_type p' = p_type p /\ p_x p' = p_x p /\ p_v p' = p_v p /\ stripe_of e p' = height p /\
     forall i, i <> e -> nth i (p_escals p') (Some 0%Q) = nth i (p_escals p) (Some 0%Q)) /\
  forall x v sg im t, 0 <= t -> (2 <= length x)%nat -> exists s', add_striped e x v sg im t s = Some s'.
Proof.
  intros R Hs He. destruct (empty_inv dims nev nes nei) as [I00 H00]. destruct (reach_ids_inv _ _ I00 H00 R) as [I Hid]. split.
  - unfold stripe_pre. assert (F : forallb (has_stripe e) (firstn (st_size s) (st_mem s)) = true).
    { apply forallb_forall. intros p Hp. apply Proofs_Store3.In_firstn_nth in Hp as (k & Hk & Ek). destruct (Hs k p (conj Hk Ek)) as [A B].
      unfold has_stripe. apply andb_true_intro. split; apply Nat.ltb_lt; lia. }
    rewrite F. eexists. split; [reflexivity|]. split; [reflexivity|]. intros l p (Hl & Hn). destruct (Hs l p (conj Hl Hn)) as [A B].
    exists (put_stripe e (height p) p). split; [split; [exact Hl|]|].
    + sfields. rewrite map_first_nth. replace (l <? st_size s)%nat with true by (symmetry; apply Nat.ltb_lt, Hl). rewrite Hn. reflexivity.
    + repeat split. { apply stripe_put. unfold has_stripe. apply andb_true_intro. split; apply Nat.ltb_lt; lia. }
      intros i Hi. unfold put_stripe. cbn [p_escals]. rewrite <- (firstn_skipn e (p_escals p)) at 3.
      destruct (Nat.lt_ge_cases i e) as [Li|Li].
      * rewrite !app_nth1 by (rewrite firstn_length; lia). reflexivity.
      * rewrite !app_nth2 by (rewrite firstn_length; lia). rewrite !firstn_length_le by lia.
        replace (skipn e (p_escals p)) with (nth e (p_escals p) None :: skipn (S e) (p_escals p)).
        -- replace (i - e)%nat with (S (i - e - 1)) by lia. reflexivity.
        -- clear - B. revert e B. induction (p_escals p) as [|a t IH]; intros e B; [cbn in B; lia|]. destruct e as [|e]; [reflexivity|]. cbn [skipn nth]. apply IH. cbn in B. lia.
  - intros x v sg im t Ht Lx. unfold add_striped.
    destruct (addParticle_inv x v sg im t s I Ht) as (s1 & E1 & I1 & P1 & A1 & S1 & _). rewrite E1.
    replace ((1 <? length x)%nat && (e <? st_nes s)%nat) with true by (symmetry; apply andb_true_intro; split; apply Nat.ltb_lt; lia).
    destruct (modify_spec (Z.of_nat (st_size s)) (put_stripe e (nth 1 x None)) s1 I1 (put_kept e _)) as (s2 & E2 & _); [lia|pose proof (inv_size _ I1); lia|].
    exists s2. exact E2.
Qed.
Print Assumptions C149_never_fails.

(* Two particles, a run begins, one more from the tunnel and one otherwise, they are moved and sorted, the first is removed. *)
Definition ex_st0 : store := Eval vm_compute in match run [ex_add 5 1; ex_add 3 2] (empty_store 2 0 1 0) with Some s => s | None => ex_empty end.
Definition ex_st1 : store := Eval vm_compute in match stripe_pre 0 ex_st0 with Some s => s | None => ex_empty end.
Definition ex_st2 : store := Eval vm_compute in match add_striped 0 [ex_num 1; ex_num 7] [ex_num 0; ex_num 0] (ex_num 1) (ex_num 1) 0 ex_st1 with Some s => s | None => ex_empty end.
Definition ex_st3 : store := Eval vm_compute in match run [ex_add 2 9] ex_st2 with Some s => s | None => ex_empty end.
Definition ex_st4 : store := Eval vm_compute in match run [OpSetX 1 [ex_num 4; ex_num 4]] ex_st3 with Some s => s | None => ex_empty end.
Definition ex_st5 : store := Eval vm_compute in match run [OpMark 0] ex_st4 with Some s => s | None => ex_empty end.
Definition ex_st6 : store := Eval vm_compute in match run [OpSortAlong] ex_st5 with Some s => s | None => ex_empty end.
Example C149_case : exists log, striped 2 0 1 0 0 ex_st6 log /\
  map (fun p => (p_gid p, height p, stripe_of 0 p)) (particles ex_st6) =
    [(4, ex_num 7, ex_num 7); (6, ex_num 9, ex_num 0); (2, ex_num 4, ex_num 2)].
Proof.
  eexists. split; [|vm_compute; reflexivity].
  eapply (st_op _ _ _ _ _ ex_st5 _ OpSortAlong); [|exact Logic.I|right; vm_compute; reflexivity|vm_compute; reflexivity].
  eapply (st_op _ _ _ _ _ ex_st4 _ (OpMark 0)); [|exact Logic.I|vm_compute; split; congruence|vm_compute; reflexivity].
  eapply (st_op _ _ _ _ _ ex_st3 _ (OpSetX 1 [ex_num 4; ex_num 4])); [|exact Logic.I|vm_compute; split; congruence|vm_compute; reflexivity].
  eapply (st_op _ _ _ _ _ ex_st2 _ (ex_add 2 9)); [|exact Logic.I|vm_compute; congruence|vm_compute; reflexivity].
  apply st_forces with (s := ex_st2).
  eapply (st_tunnel _ _ _ _ _ ex_st1 _ [ex_num 1; ex_num 7] [ex_num 0; ex_num 0] (ex_num 1) (ex_num 1) 0); [|lia|vm_compute; reflexivity].
  apply (st_start _ _ _ _ _ ex_st0); [|vm_compute; reflexivity].
  apply (allowedb_reach_ids [ex_add 5 1; ex_add 3 2] _ (empty_store 2 0 1 0)); [constructor|repeat constructor|vm_compute; reflexivity].
Qed.
Print Assumptions C149_case.
