(* C116: every run is recorded from its start. *)
From Coq Require Import QArith List Bool Lqa.
From Verif Require Import Model_Run Spec_Run Model_Rerun Properties_Registry.
Import ListNotations.
Local Open Scope Q_scope.

(* What the data of a run should be: recordings at steps of this run only, at least the delay apart, and none missed. *)
Definition recorded (startRec delay : Q) (times l : list Q) : Prop :=
  (forall t, In t l -> In t times /\ startRec <= t) /\ apart delay l /\
  forall t, In t times -> startRec <= t -> exists r, In r l /\ (t - r < delay \/ r = t).

Lemma run_recorded sr times d l d' : (forall t, In t times -> 0 <= t) -> d_delay d <= 10 -> d_last d == -10 ->
  record_run SIM sr times d = (l, d') -> recorded sr (d_delay d) times l /\ d_delay d' = d_delay d.
Proof.
  intros T D L E. destruct (record_run_spec _ _ _ _ _ _ E) as (A1 & A2 & A3 & A4 & A5 & A6 & A7). split; [|exact A1].
  split; [|split].
  - intros t Ht. split; [apply A5; exact Ht|]. rewrite Forall_forall in A4. apply A4. exact Ht.
  - destruct l; [exact I|]. apply A6.
  - intros t Ht S. destruct (A7 (or_introl eq_refl) t Ht S) as (r & [<- |Hr] & R); [|exists r; auto].
    exfalso. specialize (T t Ht). destruct R as [R|R]; [lra|]. rewrite <- R in T. lra.
Qed.

Lemma run_delay k sr times r : d_delay (r_dob (one_run k sr times r)) = d_delay (r_dob r).
Proof.
  unfold one_run. destruct (record_run SIM sr times (r_dob (start k r))) as [l d] eqn:E. cbn [r_dob].
  destruct (record_run_spec _ _ _ _ _ _ E) as (A1 & _). rewrite A1. destruct k; reflexivity.
Qed.
Lemma runs_delay k sr rs : forall r, d_delay (r_dob (runs k sr rs r)) = d_delay (r_dob r).
Proof. induction rs as [|t rs IH]; intros r; [reflexivity|]. change (d_delay (r_dob (runs k sr rs (one_run k sr t r))) = d_delay (r_dob r)). rewrite IH. apply run_delay. Qed.

(* Objects that reset: after any runs the data is that of the last run. *)
Theorem C116_resets_partial sr delay rs times : delay <= 10 -> (forall t, In t times -> 0 <= t) ->
  recorded sr delay times (r_data (runs Resets sr (rs ++ [times]) (new_rec delay))).
Proof.
  intros D T. unfold runs. rewrite fold_left_app. fold (runs Resets sr rs (new_rec delay)). cbn [fold_left].
  set (r := runs Resets sr rs (new_rec delay)). assert (RD : d_delay (r_dob r) = delay) by apply (runs_delay Resets sr rs (new_rec delay)).
  unfold one_run. cbn [start r_dob r_data]. destruct (record_run SIM sr times _) as [l d] eqn:E. cbn [r_data app].
  assert (H := run_recorded sr times (d_pre_integrate (r_dob r)) l d T). cbn [d_pre_integrate d_delay d_last] in H. rewrite RD in H.
  apply H; [exact D|reflexivity|exact E].
Qed.
Print Assumptions C116_resets_partial.

(* The others: only the first run. *)
Theorem C116_first_run_partial k sr delay times : delay <= 10 -> (forall t, In t times -> 0 <= t) ->
  recorded sr delay times (r_data (runs k sr [times] (new_rec delay))).
Proof.
  intros D T. cbn [runs fold_left]. unfold one_run.
  assert (E0 : start k (new_rec delay) = new_rec delay) by (destruct k; reflexivity). rewrite E0. cbn [new_rec r_dob r_data].
  destruct (record_run SIM sr times _) as [l d] eqn:E. cbn [r_data app].
  apply (run_recorded sr times (mkDob delay (-10) false) l d T D); [reflexivity|exact E].
Qed.
Print Assumptions C116_first_run_partial.

(* A second run, as long as the first one or shorter, is not recorded at all ... *)
Lemma none_recorded sr times : forall d, (forall t, In t times -> t - d_last d < d_delay d) -> record_run SIM sr times d = ([], d).
Proof.
  induction times as [|t ts IH]; intros d H; [reflexivity|]. cbn [record_run]. unfold record_step, check.
  assert (C : negb (Qle_bool (d_delay d) (t - d_last d)) = true).
  { apply Bool.negb_true_iff. destruct (Qle_bool _ _) eqn:E; [|reflexivity]. apply Qle_bool_iff in E. specialize (H t (or_introl eq_refl)). lra. }
  rewrite C. cbn [is_sim negb]. rewrite andb_false_r.
  assert (R := IH d (fun t' Ht => H t' (or_intror Ht))).
  destruct (Qle_bool sr t); rewrite R; reflexivity.
Qed.
Lemma last_recorded sr times : forall d l d', record_run SIM sr times d = (l, d') -> l <> [] -> exists l0, l = l0 ++ [d_last d'].
Proof.
  induction times as [|t ts IH]; intros d l d' H N; cbn [record_run] in H; [injection H as <- <-; congruence|].
  destruct (record_step SIM sr t d) as [b d1] eqn:E. destruct (record_run SIM sr ts d1) as [l1 d2] eqn:E2. injection H as <- <-.
  destruct l1 as [|a l1].
  - destruct b; [|congruence]. exists []. cbn [app]. f_equal.
    unfold record_step in E. destruct (Qle_bool sr t); [|discriminate]. unfold check in E.
    destruct (_ && _)%bool; [discriminate|]. destruct (negb _); [discriminate|]. injection E as <-.
    clear IH N. assert (A : forall ts d, record_run SIM sr ts d = ([], d2) -> d2 = d).
    { clear. induction ts as [|t ts IH]; intros d H; cbn [record_run] in H; [congruence|].
      destruct (record_step SIM sr t d) as [b d1] eqn:E. destruct (record_run SIM sr ts d1) as [l1 d3] eqn:E2.
      destruct b; [discriminate|]. injection H as -> ->. specialize (IH _ E2). subst d2.
      unfold record_step in E. destruct (Qle_bool sr t); [|congruence]. unfold check in E.
      destruct (_ && _)%bool; [congruence|]. destruct (negb _); [congruence|discriminate]. }
    rewrite (A _ _ E2). reflexivity.
  - destruct (IH _ _ _ E2) as [l0 L]; [discriminate|]. rewrite L. destruct b; [exists (t :: l0)|exists l0]; reflexivity.
Qed.

Lemma apart_last delay x l0 : 0 < delay -> forall r, apart delay (l0 ++ [x]) -> In r (l0 ++ [x]) -> r <= x.
Proof.
  intros P. induction l0 as [|a l0 IH]; intros r AP Hr.
  - destruct Hr as [<- |[]]. lra.
  - cbn [app] in *.
    assert (AP' : apart delay (l0 ++ [x]) /\ forall b l1, l0 ++ [x] = b :: l1 -> delay <= b - a).
    { destruct (l0 ++ [x]) as [|b l1]; [split; [exact I|discriminate]|]. destruct AP as [A1 A2]. split; [exact A2|].
      intros b' l1' Q. injection Q as <- <-. exact A1. }
    destruct AP' as [AP1 AP2]. destruct Hr as [<- |Hr]; [|apply IH; assumption].
    destruct l0 as [|b l0]; [specialize (AP2 _ _ eq_refl); lra|].
    specialize (AP2 _ _ eq_refl). assert (b <= x) by (apply IH; [exact AP1|left; reflexivity]). lra.
Qed.

Theorem C116_second_run_refuted k sr delay first second T : k <> Resets -> 0 < delay <= 10 ->
  (forall t, In t first -> 0 <= t) -> In T first -> sr <= T -> (forall t, In t second -> t <= T) ->
  r_data (runs k sr [first; second] (new_rec delay)) =
    match k with KeepsAll => r_data (runs k sr [first] (new_rec delay)) | _ => [] end.
Proof.
  intros NK [D0 D] P HT ST S. cbn [runs fold_left] in *.
  assert (R := C116_first_run_partial k sr delay first D P). cbn [runs fold_left] in R.
  set (r1 := one_run k sr first (new_rec delay)) in *.
  assert (E0 : start k (new_rec delay) = new_rec delay) by (destruct k; reflexivity).
  destruct R as (_ & AP & R). destruct (R T HT ST) as (r & Hr & Br).
  assert (L : exists l0, r_data r1 = l0 ++ [d_last (r_dob r1)]).
  { assert (NE : r_data r1 <> []) by (intros C; rewrite C in Hr; destruct Hr).
    clear - NE E0. unfold r1, one_run in *. rewrite E0 in *. clear r1. cbn [new_rec r_dob r_data] in *.
    destruct (record_run SIM sr first _) as [l d] eqn:E. cbn [r_data r_dob app] in *.
    apply (last_recorded sr first _ _ _ E). exact NE. }
  destruct L as [l0 L].
  assert (DD : d_delay (r_dob r1) = delay) by apply (run_delay k sr first (new_rec delay)).
  assert (N : record_run SIM sr second (r_dob r1) = ([], r_dob r1)).
  { apply none_recorded. intros t Ht. specialize (S t Ht). rewrite DD.
    rewrite L in AP, Hr. assert (X := apart_last _ _ _ D0 _ AP Hr). destruct Br as [Br|Br]; [lra|]. rewrite Br in X. lra. }
  unfold one_run at 1. destruct k; [congruence| |]; cbn [start r_dob r_data]; rewrite N; cbn [r_data]; [reflexivity|apply app_nil_r].
Qed.
Print Assumptions C116_second_run_refuted.

Example C116_case : r_data (runs Resets 0 [[0; 1; 2]; [0; 1]] (new_rec 1)) = [0; 1] /\
  r_data (runs ClearsOnly 0 [[0; 1; 2]; [0; 1]] (new_rec 1)) = [] /\
  r_data (runs KeepsAll 0 [[0; 1; 2]; [0; 1]] (new_rec 1)) = [0; 1; 2].
Proof. repeat split. Qed.
