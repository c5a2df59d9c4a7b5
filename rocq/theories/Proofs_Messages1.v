(* Every schedule of communicating processors leads to the same result (C37, C54). *)
From Coq Require Import String.
From Verif Require Import Lib Model_Geometry Model_Store Model_Buffer Model_Topology Model_Messages.
From Coq Require Import ZifyBool ZifyNat.
Local Open Scope list_scope.

Lemma update_len {A} (l : list A) : forall k a, length (update k a l) = length l.
Proof. induction l as [|b l IH]; intros [|k] a; cbn; auto. Qed.
Lemma update_nth {A} (l : list A) : forall k j a, nth_error (update k a l) j = if (j =? k)%nat then (if (j <? length l)%nat then Some a else None) else nth_error l j.
Proof.
  induction l as [|b l IH]; intros [|k] [|j] a; cbn; auto.
  - destruct (j =? k)%nat; reflexivity.
  - rewrite IH. reflexivity.
Qed.
Lemma update_same {A} (l : list A) k a : (k < length l)%nat -> nth_error (update k a l) k = Some a.
Proof. intros H. rewrite update_nth, Nat.eqb_refl. destruct (Nat.ltb_spec k (length l)); [reflexivity|lia]. Qed.
Lemma update_other {A} (l : list A) k j a : j <> k -> nth_error (update k a l) j = nth_error l j.
Proof. intros H. rewrite update_nth. destruct (Nat.eqb_spec j k); [tauto|reflexivity]. Qed.
Lemma update_comm {A} (l : list A) j k a b : j <> k -> update j a (update k b l) = update k b (update j a l).
Proof. revert j k. induction l as [|c l IH]; intros [|j] [|k] H; cbn; auto; [tauto|]. f_equal. apply IH. congruence. Qed.
Lemma update_id {A} (l : list A) : forall k a, nth_error l k = Some a -> update k a l = l.
Proof. induction l as [|c l IH]; intros [|k] a H; cbn in *; try discriminate; [congruence|]. f_equal. auto. Qed.

Section KAHN.
Context {M L : Type}.
Variable eager : nat -> nat -> nat -> nat -> bool.
Variable next : nat -> L -> act M L.
Local Notation step := (pstep eager next).
Local Notation exec := (execute eager next).

Lemma msgs_app d t (a b : list (nat * nat * M)) : msgs d t (a ++ b) = msgs d t a ++ msgs d t b.
Proof. unfold msgs. now rewrite filter_app, map_app. Qed.
Lemma received_app s t a b : received s t (a ++ b) = (received s t a + received s t b)%nat.
Proof. unfold received. now rewrite filter_app, app_length. Qed.

(* A step of k: what changes. *)
Lemma step_inv k ps ps' : step k ps = Some ps' -> exists me me', nth_error ps k = Some me /\ ps' = update k me' ps /\
  (exists es, pr_sent me' = pr_sent me ++ es) /\ (exists rs, pr_recv me' = pr_recv me ++ rs).
Proof.
  unfold pstep. destruct (nth_error ps k) as [me|]; [|discriminate]. intros E. exists me.
  assert (N : forall {A} (l : list A), l = l ++ []) by (intros; now rewrite app_nil_r).
  destruct (next k (pr_state me)) as [d t m l|s t f|t l|l|].
  - destruct (d <? length ps)%nat; [|discriminate]. injection E as <-. eexists. split; [reflexivity|]. split; [reflexivity|]. cbn. eauto.
  - destruct (nth_error ps s) as [them|]; [|discriminate]. destruct (nth_error (msgs k t (pr_sent them)) _); [|discriminate]. injection E as <-.
    eexists. split; [reflexivity|]. split; [reflexivity|]. cbn. eauto.
  - destruct (wait_over eager k t me ps); [|discriminate]. injection E as <-. eexists. split; [reflexivity|]. split; [reflexivity|]. cbn. eauto.
  - injection E as <-. eexists. split; [reflexivity|]. split; [reflexivity|]. cbn. eauto.
  - discriminate.
Qed.

(* Moving another processor does not disable k nor change what it does. *)
Lemma step_mono k j ps jme me' ps' : j <> k -> step k ps = Some ps' -> nth_error ps j = Some jme ->
  (exists es, pr_sent me' = pr_sent jme ++ es) -> (exists rs, pr_recv me' = pr_recv jme ++ rs) ->
  step k (update j me' ps) = Some (update j me' ps').
Proof.
  intros Hne E Hj [es Es] [rs Rs]. unfold pstep in *. rewrite (update_other ps j k me') by auto.
  destruct (nth_error ps k) as [me|] eqn:Ek; [|discriminate].
  destruct (next k (pr_state me)) as [d t m l|s t f|t l|l|].
  - rewrite update_len. destruct (d <? length ps)%nat; [|discriminate]. injection E as <-. f_equal. apply update_comm; congruence.
  - assert (Hs : forall them, nth_error ps s = Some them -> exists them', nth_error (update j me' ps) s = Some them' /\ exists es', pr_sent them' = pr_sent them ++ es').
    { intros them Ht. destruct (Nat.eq_dec s j) as [->|Hsj].
      - exists me'. split; [apply update_same; apply nth_error_Some; congruence|]. assert (them = jme) by congruence. subst. eauto.
      - exists them. split; [now rewrite update_other by auto|]. exists []. now rewrite app_nil_r. }
    destruct (nth_error ps s) as [them|]; [|discriminate]. destruct (Hs them eq_refl) as (them' & -> & es' & Es').
    destruct (nth_error (msgs k t (pr_sent them)) (received s t (pr_recv me))) as [m|] eqn:Em; [|discriminate]. injection E as <-.
    rewrite Es', msgs_app, nth_error_app1 by (apply nth_error_Some; congruence). rewrite Em. f_equal. apply update_comm; congruence.
  - destruct (wait_over eager k t me ps) eqn:Ew; [|discriminate]. injection E as <-.
    assert (Hw : wait_over eager k t me (update j me' ps) = true).
    { unfold wait_over in *. rewrite update_len. rewrite forallb_forall in *. intros d Hd. specialize (Ew d Hd).
      destruct (Nat.eq_dec d j) as [->|Hdj].
      - rewrite update_same by (apply nth_error_Some; congruence). rewrite Hj in Ew. rewrite forallb_forall in *. intros i Hi. specialize (Ew i Hi).
        rewrite Rs, received_app. lia.
      - now rewrite update_other by auto. }
    rewrite Hw. f_equal. apply update_comm; congruence.
  - injection E as <-. f_equal. apply update_comm; congruence.
  - discriminate.
Qed.

Lemma diamond j k ps ps1 ps2 : j <> k -> step j ps = Some ps1 -> step k ps = Some ps2 ->
  exists ps3, step k ps1 = Some ps3 /\ step j ps2 = Some ps3.
Proof.
  intros Hne E1 E2. destruct (step_inv j ps ps1 E1) as (jme & jme' & J1 & J2 & J3 & J4).
  destruct (step_inv k ps ps2 E2) as (kme & kme' & K1 & K2 & K3 & K4).
  exists (update j jme' ps2). split.
  - rewrite J2. now apply (step_mono k j ps jme).
  - rewrite K2 at 1. rewrite (step_mono j k ps kme kme' ps1); auto. rewrite J2, K2. f_equal. symmetry. apply update_comm; congruence.
Qed.

Definition stuck (ps : list (proc M L)) : Prop := forall k, step k ps = None.

Lemma one_step_confluence w : forall ps k ps1 tau, exec w ps = Some tau -> stuck tau -> step k ps = Some ps1 ->
  exists w', exec w' ps1 = Some tau /\ length w = S (length w').
Proof.
  induction w as [|j w IH]; intros ps k ps1 tau E St Ek; cbn in E.
  - injection E as ->. rewrite St in Ek. discriminate.
  - destruct (step j ps) as [psj|] eqn:Ej; [|discriminate]. destruct (Nat.eq_dec j k) as [->|Hne].
    + exists w. rewrite Ej in Ek. injection Ek as <-. auto.
    + destruct (diamond j k ps psj ps1 Hne Ej Ek) as (ps3 & E3 & E4).
      destruct (IH psj k ps3 tau E St E3) as (w' & Ew & Lw). exists (j :: w'). cbn. rewrite E4. split; [exact Ew|]. lia.
Qed.

(* If some schedule ends, then every schedule can be continued to the same end, in the same number of steps. *)
Theorem confluence w ps tau : exec w ps = Some tau -> stuck tau ->
  forall v ps', exec v ps = Some ps' -> exists w', exec w' ps' = Some tau /\ length w = (length v + length w')%nat.
Proof.
  intros E St v. revert w ps E. induction v as [|k v IH]; intros w ps E ps' Ev; cbn in Ev.
  - injection Ev as ->. eauto.
  - destruct (step k ps) as [ps1|] eqn:Ek; [|discriminate]. destruct (one_step_confluence w ps k ps1 tau E St Ek) as (w' & Ew & Lw).
    destruct (IH w' ps1 Ew ps' Ev) as (w2 & E2 & L2). exists w2. split; [exact E2|]. cbn. lia.
Qed.

Lemma exec_app a : forall b ps, exec (a ++ b) ps = match exec a ps with Some p => exec b p | None => None end.
Proof. induction a as [|k a IH]; intros b ps; cbn; [reflexivity|]. destruct (step k ps); auto. Qed.

(* If every processor can go its way alone while the others have or have not gone theirs, all can. *)
Lemma phase (ps qs : list (proc M L)) : length ps = length qs ->
  (forall k p q rho, nth_error ps k = Some p -> nth_error qs k = Some q -> length rho = length ps -> nth_error rho k = Some p ->
     (forall j a, j <> k -> nth_error rho j = Some a -> nth_error ps j = Some a \/ nth_error qs j = Some a) ->
     exists w, exec w rho = Some (update k q rho)) ->
  exists w, exec w ps = Some qs.
Proof.
  intros HL H.
  assert (G : forall n, (n <= length ps)%nat -> exists w, exec w ps = Some (firstn n qs ++ skipn n ps)).
  { induction n as [|n IH]; intros Hn; [exists []; reflexivity|]. destruct IH as [w Ew]; [lia|].
    assert (Hlen : length (firstn n qs ++ skipn n ps) = length ps) by (rewrite app_length, firstn_length, skipn_length; lia).
    destruct (nth_error ps n) as [p|] eqn:Ep. 2:{ apply nth_error_None in Ep. lia. }
    destruct (nth_error qs n) as [q|] eqn:Eq. 2:{ apply nth_error_None in Eq. lia. }
    assert (Hnth : forall j, nth_error (firstn n qs ++ skipn n ps) j = if (j <? n)%nat then nth_error qs j else nth_error ps j).
    { intros j. destruct (Nat.ltb_spec j n).
      - rewrite nth_error_app1 by (rewrite firstn_length; lia). rewrite <- (firstn_skipn n qs) at 2. symmetry. apply nth_error_app1. rewrite firstn_length. lia.
      - rewrite nth_error_app2 by (rewrite firstn_length; lia). rewrite firstn_length, Nat.min_l by lia.
        rewrite <- (firstn_skipn n ps) at 2. rewrite nth_error_app2 by (rewrite firstn_length; lia). rewrite firstn_length, Nat.min_l by lia. reflexivity. }
    destruct (H n p q (firstn n qs ++ skipn n ps) Ep Eq Hlen) as [w2 E2].
    { rewrite Hnth. destruct (Nat.ltb_spec n n); [lia|exact Ep]. }
    { intros j a _ Ha. rewrite Hnth in Ha. destruct (j <? n)%nat; auto. }
    exists (w ++ w2). rewrite exec_app, Ew, E2. f_equal.
    assert (Ex : forall (l l' : list (proc M L)), (forall k, nth_error l k = nth_error l' k) -> l = l').
    { induction l as [|a l IHl]; intros [|b l'] Hk; auto; try (specialize (Hk O); discriminate).
      pose proof (Hk O) as H0. cbn in H0. injection H0 as ->. f_equal. apply IHl. intros k. apply (Hk (S k)). }
    apply Ex. intros j. rewrite update_nth, Hlen, Hnth.
    assert (Hnth' : nth_error (firstn (S n) qs ++ skipn (S n) ps) j = if (j <? S n)%nat then nth_error qs j else nth_error ps j).
    { destruct (Nat.ltb_spec j (S n)).
      - rewrite nth_error_app1 by (rewrite firstn_length; lia). rewrite <- (firstn_skipn (S n) qs) at 2. symmetry. apply nth_error_app1. rewrite firstn_length. lia.
      - rewrite nth_error_app2 by (rewrite firstn_length; lia). rewrite firstn_length, Nat.min_l by lia.
        rewrite <- (firstn_skipn (S n) ps) at 2. rewrite nth_error_app2 by (rewrite firstn_length; lia). rewrite firstn_length, Nat.min_l by lia. reflexivity. }
    rewrite Hnth'. destruct (Nat.eqb_spec j n) as [->|Hj].
    - destruct (Nat.ltb_spec n (length ps)); [|lia]. destruct (Nat.ltb_spec n (S n)); [|lia]. now rewrite Eq.
    - destruct (Nat.ltb_spec j n), (Nat.ltb_spec j (S n)); auto; lia. }
  destruct (G (length ps) (le_n _)) as [w Ew]. exists w. rewrite Ew. rewrite firstn_all2 by lia. rewrite skipn_all. now rewrite app_nil_r.
Qed.
End KAHN.
