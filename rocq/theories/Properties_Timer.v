(* C51: timers. *)
From Coq Require Import QArith List Bool Lia Lqa Sorted.
From Verif Require Import Lib Model_Timer Spec_Timer.
Import ListNotations.
Local Open Scope Q_scope.

Lemma span_snoc h c j : (j < length h)%nat -> span (h ++ [c]) j = span h j.
Proof. intros H. unfold span. rewrite nth_error_app1 by exact H. rewrite firstn_app. replace (j - length h)%nat with 0%nat by lia. cbn [firstn]. now rewrite app_nil_r. Qed.
Lemma span_last h c : span (h ++ [c]) (length h) = match c with Stop b => match open_since (rev h) with Some a => b - a | None => 0 end | _ => 0 end.
Proof. unfold span. rewrite nth_error_app2, Nat.sub_diag by lia. cbn [nth_error]. rewrite firstn_app, Nat.sub_diag, firstn_all. cbn [firstn]. rewrite app_nil_r. destruct c; reflexivity. Qed.
Lemma fold_zero (f : nat -> Q) l : (forall j, In j l -> f j == 0) -> fold_right (fun j s => f j + s) 0 l == 0.
Proof. induction l as [|a l IH]; intros H; cbn [fold_right]; [reflexivity|]. rewrite IH by (intros; apply H; now right). rewrite (H a) by now left. ring. Qed.
Lemma fold_ext (f g : nat -> Q) l : (forall j, In j l -> f j == g j) -> fold_right (fun j s => f j + s) 0 l == fold_right (fun j s => g j + s) 0 l.
Proof. induction l as [|a l IH]; intros H; cbn [fold_right]; [reflexivity|]. rewrite IH by (intros; apply H; now right). rewrite (H a) by now left. reflexivity. Qed.
Lemma fold_snoc (f : nat -> Q) l a : fold_right (fun j s => f j + s) 0 (l ++ [a]) == fold_right (fun j s => f j + s) 0 l + f a.
Proof. rewrite fold_right_app. cbn [fold_right]. induction l as [|b l IH]; cbn [fold_right]; [ring|]. rewrite IH. ring. Qed.
Lemma total_snoc h c : total (h ++ [c]) == match c with Clear => 0 | Stop b => total h + match open_since (rev h) with Some a => b - a | None => 0 end | _ => total h end.
Proof.
  unfold total. rewrite app_length. cbn [length]. rewrite Nat.add_1_r, seq_S. cbn [Nat.add].
  rewrite (fold_snoc (fun j => if existsb is_clear (skipn (S j) (h ++ [c])) then 0 else span (h ++ [c]) j)).
  rewrite (skipn_all2 (h ++ [c])) by (rewrite app_length; cbn [length]; lia). cbn [existsb]. rewrite span_last.
  assert (E : forall j, In j (seq 0 (length h)) -> existsb is_clear (skipn (S j) (h ++ [c])) = existsb is_clear (skipn (S j) h) || is_clear c).
  { intros j Hj. apply in_seq in Hj. rewrite skipn_app. replace (S j - length h)%nat with 0%nat by lia. cbn [skipn]. rewrite existsb_app. cbn [existsb]. now rewrite orb_false_r. }
  destruct c.
  all: try (rewrite (fold_ext _ (fun j => if existsb is_clear (skipn (S j) h) then 0 else span h j));
    [ring|intros j Hj; rewrite (E j Hj); cbn [is_clear]; rewrite orb_false_r; apply in_seq in Hj; rewrite span_snoc by lia; reflexivity]).
  rewrite fold_zero; [ring|]. intros j Hj. rewrite (E j Hj). cbn [is_clear]. now rewrite orb_true_r.
Qed.
Definition tm_step (t : timer) (c : call) : timer := match c with Start a => tm_start a t | Stop a => tm_stop a t | Clear => tm_clear t | Switch _ => t end.
Lemma tm_inv h : let t := fold_left tm_step h timer0 in
  t_total t == total h /\ (if t_running t then open_since (rev h) = Some (t_s t) else open_since (rev h) = None).
Proof.
  induction h as [|c h IH] using rev_ind; [split; reflexivity|]. cbv zeta in *. rewrite fold_left_app. cbn [fold_left]. set (t := fold_left tm_step h timer0) in *. destruct IH as [A B].
  rewrite total_snoc, rev_app_distr. cbn [rev app open_since]. destruct c; cbn [tm_step open_since].
  - split; [exact A|reflexivity].
  - unfold tm_stop. destruct (t_running t) eqn:E; cbn [t_total t_running]; rewrite B.
    + split; [rewrite A; reflexivity|reflexivity].
    + rewrite E. split; [rewrite A; ring|reflexivity].
  - split; [reflexivity|exact B].
  - split; [exact A|exact B].
Qed.
Lemma timed_heard h : forall on t, snd (fold_left timed_step h (on, t)) = fold_left tm_step (heard on h) t.
Proof.
  induction h as [|c h IH]; intros on t; [reflexivity|]. cbn [fold_left]. destruct c; cbn [timed_step heard].
  - destruct on; cbn [fold_left tm_step]; apply IH.
  - destruct on; cbn [fold_left tm_step]; apply IH.
  - cbn [fold_left tm_step]. apply IH.
  - apply IH.
Qed.

(* The time of a timer is the sum of its matched intervals; calls while timing is off are ignored. *)
Theorem C51_total h : let t := snd (timed_run h) in let h' := heard true h in
  t_total t == total h' /\
  (forall now, tm_current now t == total h' + match open_since (rev h') with Some a => now - a | None => 0 end) /\
  (t_running t = true <-> open_since (rev h') <> None).
Proof.
  cbv zeta. unfold timed_run. rewrite timed_heard. destruct (tm_inv (heard true h)) as [A B]. set (t := fold_left tm_step (heard true h) timer0) in *.
  split; [exact A|]. split.
  - intros now. unfold tm_current. destruct (t_running t); rewrite B, A; [reflexivity|ring].
  - destruct (t_running t); rewrite B; split; congruence.
Qed.
Print Assumptions C51_total.
Lemma heard_on h : (forall b, In (Switch b) h -> b = true) -> heard true h = filter (fun c => match c with Switch _ => false | _ => true end) h.
Proof. induction h as [|c h IH]; intros H; [reflexivity|]. assert (IH' := IH (fun b Hb => H b (or_intror Hb))). destruct c; cbn [heard filter]; try (rewrite IH'; reflexivity). rewrite (H on) by now left. exact IH'. Qed.

(* Unmatched calls: a stop call with nothing to stop and a start call before another start call change nothing. *)
Theorem C51_unmatched h1 h2 now : (forall b, ~ In (Switch b) (h1 ++ h2)) ->
  (open_since (rev h1) = None -> t_total (snd (timed_run (h1 ++ Stop now :: h2))) == t_total (snd (timed_run (h1 ++ h2)))) /\
  (forall now2 h3, h2 = Start now2 :: h3 -> t_total (snd (timed_run (h1 ++ Start now :: h2))) == t_total (snd (timed_run (h1 ++ h2)))).
Proof.
  intros Hs. assert (D : forall h, (forall b, ~ In (Switch b) h) -> snd (timed_run h) = fold_left tm_step h timer0).
  { intros h H. unfold timed_run. rewrite timed_heard, heard_on by (intros b Hb; destruct (H b Hb)). f_equal. clear - H. induction h as [|c h IH]; [reflexivity|]. cbn [filter].
    rewrite IH by (intros b Hb; apply (H b); now right). destruct c; try reflexivity. destruct (H on). now left. }
  assert (Hi : forall c, (forall b, c <> Switch b) -> forall b, ~ In (Switch b) (h1 ++ c :: h2)).
  { intros c Hc b Hb. apply in_app_or in Hb as [Hb|[Hb|Hb]]; [apply (Hs b), in_or_app; now left|now apply (Hc b)|apply (Hs b), in_or_app; now right]. }
  split.
  - intros Ho. rewrite !D; [|exact Hs|apply Hi; discriminate]. rewrite !fold_left_app. cbn [fold_left tm_step]. destruct (tm_inv h1) as [_ B]. cbv zeta in B. unfold tm_stop at 1. destruct (t_running (fold_left tm_step h1 timer0)); [congruence|reflexivity].
  - intros now2 h3 E. rewrite !D; [|exact Hs|apply Hi; discriminate]. subst h2. rewrite !fold_left_app. cbn [fold_left tm_step]. reflexivity.
Qed.
Print Assumptions C51_unmatched.
Example C51_total_case : let h := [Start 1; Stop 3; Stop 4; Start 5; Switch false; Stop 6; Switch true; Start 7; Clear; Stop 10; Start 11] in
  t_total (snd (timed_run h)) == 3 /\ total (heard true h) == 3 /\ tm_current 13 (snd (timed_run h)) == 5.
Proof. repeat split; vm_compute; reflexivity. Qed.

(* If the clock does not go back, the time is not negative and not more than the time between the first and the last reading. *)
Theorem C51_bounds h first last : Sorted Qle (first :: readings (heard true h) ++ [last]) -> 0 <= t_total (snd (timed_run h)) <= last - first.
Proof.
  intros S. unfold timed_run. rewrite timed_heard. apply Sorted_StronglySorted in S; [|intros x y z; apply Qle_trans].
  revert S. generalize (heard true h). clear h. intros h S.
  assert (G : forall h t first last, StronglySorted Qle (first :: readings h ++ [last]) ->
     forall lo, lo <= first -> (t_running t = true -> lo <= t_s t /\ t_s t <= first) -> 0 <= t_total t -> t_total t <= (if t_running t then t_s t else first) - lo ->
     let t' := fold_left tm_step h t in 0 <= t_total t' /\ t_total t' <= last - lo).
  { clear. induction h as [|c h IH]; intros t first last S lo Hl Hr H0 H1.
    - cbn [fold_left]. cbn [readings app] in S. apply StronglySorted_inv in S as [_ S]. apply Forall_inv in S. split; [exact H0|]. destruct (t_running t); [destruct (Hr eq_refl)|]; lra.
    - cbn [fold_left]. cbv zeta. destruct c; cbn [tm_step readings app] in *.
      + apply StronglySorted_inv in S as [S1 F1]. pose proof (Forall_inv F1) as Hf. apply (IH _ now last S1); cbn [tm_start t_total t_running t_s]; [lra|intros _; lra|exact H0|].
        destruct (t_running t); [destruct (Hr eq_refl)|]; lra.
      + apply StronglySorted_inv in S as [S1 F1]. pose proof (Forall_inv F1) as Hf. apply (IH _ now last S1); [lra| | |]; unfold tm_stop; destruct (t_running t) eqn:E; cbn [t_total t_running t_s]; rewrite ?E; try discriminate;
          try (destruct (Hr eq_refl); lra); lra.
      + apply (IH _ first last S); cbn [tm_clear t_total t_running t_s]; [exact Hl|exact Hr|lra|]. destruct (t_running t); [destruct (Hr eq_refl)|]; lra.
      + apply (IH _ first last S); assumption. }
  apply (G h timer0 first last S first); cbn; try lra.
Qed.
Print Assumptions C51_bounds.
Example C51_bounds_case : Sorted Qle (0 :: readings (heard true [Start 1; Stop 3; Start 5; Stop 6]) ++ [7]) /\ t_total (snd (timed_run [Start 1; Stop 3; Start 5; Stop 6])) == 3.
Proof. split; [cbn; repeat constructor; vm_compute; discriminate|vm_compute; reflexivity]. Qed.

(* last() is the latest interval that was ended. *)
Theorem C51_last h : let h' := heard true h in
  (forall j, (j < length h')%nat -> (exists b, nth_error h' j = Some (Stop b)) -> open_since (rev (firstn j h')) <> None ->
     (forall k, (j < k)%nat -> (exists b, nth_error h' k = Some (Stop b)) -> open_since (rev (firstn k h')) = None) ->
     t_last (snd (timed_run h)) == span h' j) /\
  ((forall k, (exists b, nth_error h' k = Some (Stop b)) -> open_since (rev (firstn k h')) = None) -> t_last (snd (timed_run h)) == 0).
Proof.
  cbv zeta. unfold timed_run. rewrite timed_heard. generalize (heard true h). clear h. intros h. induction h as [|c h IH] using rev_ind.
  - split; [intros j Hj; cbn in Hj; lia|reflexivity].
  - rewrite fold_left_app. cbn [fold_left]. set (t := fold_left tm_step h timer0) in *. pose proof (tm_inv h) as [_ B]. cbv zeta in B. fold t in B.
    assert (Fn : forall k, (k <= length h)%nat -> firstn k (h ++ [c]) = firstn k h) by (intros k Hk; rewrite firstn_app; replace (k - length h)%nat with 0%nat by lia; cbn [firstn]; apply app_nil_r).
    assert (Ends : (exists b, c = Stop b) /\ open_since (rev h) <> None \/ (~ exists b, c = Stop b) \/ open_since (rev h) = None).
    { destruct (open_since (rev h)); [|right; right; reflexivity]. destruct c; [right; left; intros [b E]; discriminate|left; split; [eauto|discriminate]|right; left; intros [b E]; discriminate|right; left; intros [b E]; discriminate]. }
    assert (Old : (forall j, (j < length h)%nat -> forall x, nth_error (h ++ [c]) j = Some x <-> nth_error h j = Some x)) by (intros j Hj x; now rewrite nth_error_app1).
    destruct Ends as [[[b ->] Ho]|Ends].
    + destruct (open_since (rev h)) as [a|] eqn:Eo; [|congruence]. assert (Er : t_running t = true) by (destruct (t_running t); [reflexivity|congruence]). rewrite Er in B. injection B as B.
      cbn [tm_step]. unfold tm_stop. rewrite Er. cbn [t_last]. split.
      * intros j Hj [b' Ej] Hop Hlast. rewrite app_length in Hj. cbn [length] in Hj. destruct (Nat.eq_dec j (length h)) as [-> |Hne].
        -- rewrite span_last, Eo, B. reflexivity.
        -- exfalso. specialize (Hlast (length h) ltac:(lia)). rewrite Fn, firstn_all, Eo in Hlast by lia. discriminate Hlast. exists b. rewrite nth_error_app2, Nat.sub_diag by lia. reflexivity.
      * intros Hno. exfalso. specialize (Hno (length h)). rewrite Fn, firstn_all, Eo in Hno by lia. discriminate Hno. exists b. rewrite nth_error_app2, Nat.sub_diag by lia. reflexivity.
    + assert (Et : t_last (tm_step t c) = t_last t).
      { destruct c; try reflexivity. cbn [tm_step]. unfold tm_stop. destruct (t_running t) eqn:Er; [|reflexivity]. exfalso. destruct Ends as [E|E]; [apply E; eauto|congruence]. }
      rewrite Et. assert (Stay : forall k, (exists b, nth_error (h ++ [c]) k = Some (Stop b)) -> open_since (rev (firstn k (h ++ [c]))) <> None -> (k < length h)%nat).
      { intros k [b Ek] Hop. destruct (Nat.lt_ge_cases k (length h)); [assumption|]. exfalso. rewrite nth_error_app2 in Ek by lia. destruct (k - length h)%nat as [|m] eqn:Em; [|destruct m; discriminate]. cbn in Ek. injection Ek as ->.
        assert (k = length h) by lia. subst k. rewrite Fn, firstn_all in Hop by lia. destruct Ends as [E|E]; [apply E; eauto|congruence]. }
      destruct IH as [IH1 IH2]. split.
      * intros j Hj Ej Hop Hlast. pose proof (Stay j Ej Hop) as Hj'. rewrite span_snoc by exact Hj'. apply IH1; [exact Hj'| | |].
        -- destruct Ej as [b Ej]. exists b. now apply Old.
        -- now rewrite <- Fn by lia.
        -- intros k Hk [b Ek]. assert (Hk' : (k < length h)%nat) by (apply nth_error_Some; congruence). rewrite <- Fn by lia. apply Hlast; [exact Hk|]. exists b. now apply Old.
      * intros Hno. apply IH2. intros k [b Ek]. assert (Hk' : (k < length h)%nat) by (apply nth_error_Some; congruence). rewrite <- Fn by lia. apply Hno. exists b. now apply Old.
Qed.
Print Assumptions C51_last.
Example C51_last_case : t_last (snd (timed_run [Start 1; Stop 3; Start 5; Stop 9; Stop 12; Clear; Start 13])) == 4.
Proof. vm_compute. reflexivity. Qed.

(* Time while timing is off is counted if the timer was started before and is stopped after; a timer that is stopped while timing is off
   goes on. *)
Theorem C51_switch_refuted a b c d : let h := [Start a; Switch false; Stop b; Switch true; Stop c] in
  t_total (snd (timed_run h)) == c - a /\ t_running (snd (timed_run [Start a; Switch false; Stop b; Switch true])) = true /\
  tm_current d (snd (timed_run [Start a; Switch false; Stop b])) == d - a.
Proof. cbn. split; [ring|]. split; [reflexivity|]. unfold tm_current. cbn. ring. Qed.
Print Assumptions C51_switch_refuted.

(* ---------- the run time ---------- *)
Lemma run_inv h : forall s, let '(t, r) := fold_left run_step h s in forall hc, t_total (fst s) == 0 -> snd s == total hc ->
  (if t_running (fst s) then open_since (rev hc) = Some (t_s (fst s)) else open_since (rev hc) = None) ->
  t_total t == 0 /\ r == total (hc ++ flat_map as_calls h).
Proof.
  induction h as [|c h IH]; intros s.
  - cbn. destruct s as [t r]. intros hc H0 H1 _. rewrite app_nil_r. split; assumption.
  - cbn [fold_left flat_map]. specialize (IH (run_step s c)). destruct (fold_left run_step h (run_step s c)) as [t' r'] eqn:E. intros hc H0 H1 H2.
    specialize (IH (hc ++ as_calls c)). rewrite <- app_assoc in IH. destruct s as [t r]. cbn [fst snd] in *. destruct c as [a|a|a b|]; cbn [run_step as_calls fst snd] in *.
    + apply IH; [exact H0|rewrite total_snoc; exact H1|]. cbn [tm_start t_running t_s]. rewrite rev_app_distr. reflexivity.
    + apply IH; [reflexivity| |].
      * rewrite total_snoc. unfold tm_stop. destruct (t_running t); rewrite H2; cbn [t_total]; rewrite H0, H1; ring.
      * cbn [tm_clear t_running t_s]. rewrite rev_app_distr. cbn. unfold tm_stop. destruct (t_running t) eqn:Er; cbn [t_running]; [reflexivity|]. rewrite Er. reflexivity.
    + apply IH; [reflexivity| |].
      * change [Stop a; Start b] with ([Stop a] ++ [Start b]). rewrite app_assoc, !total_snoc. unfold tm_stop. destruct (t_running t); rewrite H2; cbn [t_total]; rewrite H0, H1; ring.
      * cbn [tm_start t_running t_s]. rewrite rev_app_distr. reflexivity.
    + apply IH; [exact H0|rewrite total_snoc; reflexivity|]. rewrite rev_app_distr. exact H2.
Qed.
(* The run time is that of a stopwatch with the same calls: a mark is a stop call and then a start call, a reset a clear call. *)
Theorem C51_run_time h : snd (run_run h) == total (flat_map as_calls h).
Proof. unfold run_run. pose proof (run_inv h (timer0, 0)) as H. destruct (fold_left run_step h (timer0, 0)) as [t r]. cbn [snd]. destruct (H []) as [_ E]; try reflexivity. exact E. Qed.
Print Assumptions C51_run_time.
(* Runs, with results written once after them: the sum of the times of the runs. *)
Theorem C51_runs l w : let h := flat_map (fun '(a, b) => one_run a b) l in let s := fold_right (fun '(a, b) s => (b - a) + s) 0 l in
  snd (run_run h) == s /\ snd (run_run (h ++ (let '(x, y, z) := w in one_write x y z))) == s.
Proof.
  cbv zeta. assert (G : forall t r, t_running t = false -> t_total t == 0 -> let '(t', r') := fold_left run_step (flat_map (fun '(a, b) => one_run a b) l) (t, r) in
     t_running t' = false /\ t_total t' == 0 /\ r' == r + fold_right (fun '(a, b) s => (b - a) + s) 0 l).
  { induction l as [|[a b] l IH]; intros t r Hr Ht; cbn [flat_map app fold_left fold_right]; [repeat split; try assumption; ring|].
    unfold one_run at 1. cbn [app fold_left run_step]. unfold tm_stop, tm_start, tm_clear. cbn [t_running t_total t_s t_last].
    specialize (IH (mkT a 0 (b - a) false) (r + (t_total t + (b - a))) eq_refl (Qeq_refl 0)). destruct (fold_left run_step _ _) as [t' r']. destruct IH as (A & B & C). split; [exact A|]. split; [exact B|]. rewrite C, Ht. ring. }
  unfold run_run. rewrite fold_left_app. specialize (G timer0 0 eq_refl (Qeq_refl 0)). destruct (fold_left run_step (flat_map _ l) (timer0, 0)) as [t r]. destruct G as (A & B & C). cbn [snd]. split; [rewrite C; ring|].
  destruct w as [[x y] z]. unfold one_write. cbn [fold_left run_step]. unfold tm_stop. rewrite A. cbn [tm_clear t_running t_total]. rewrite A. cbn [tm_clear tm_start t_total snd].
  lra.
Qed.
Print Assumptions C51_runs.
Example C51_runs_case : snd (run_run (one_run 1 3 ++ one_run 10 14 ++ one_write 20 20 21)) == 6.
Proof. vm_compute. reflexivity. Qed.
(* Writing the results a second time counts the time between the two as run time. *)
Theorem C51_write_twice_refuted a b x y z x' y' z' : snd (run_run (one_run a b ++ one_write x y z ++ one_write x' y' z')) == (b - a) + (x' - z).
Proof. cbn. ring. Qed.
Print Assumptions C51_write_twice_refuted.
