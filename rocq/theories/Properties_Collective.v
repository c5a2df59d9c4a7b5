(* C128: every processor gets the arguments of the root. C129: how main ends on several processors. *)
From Coq Require Import List ZArith Lia Bool Arith.
From Verif Require Import Lib Model_Collective Spec_Collective Proofs_Collective.
Import ListNotations.
Local Open Scope Z_scope.

Lemma strings_lead {A} P (g : nat -> Z) (rest : nat -> list (list Z) -> prog A) qs l : forall acc n,
  leads P n (fun r => rest r (acc ++ l)) qs ->
  leads P (length l + n) (fun r => if (r =? 0)%nat then send_strings l acc (rest r) else recv_strings (g r) (map (fun s => Z.of_nat (length s)) l) acc (rest r)) qs.
Proof.
  induction l as [|s l IH]; intros acc n H.
  - cbn [length Nat.add]. revert H. apply leads_ext. intros r _. rewrite app_nil_r. now destruct (r =? 0)%nat.
  - cbn [length Nat.add]. eapply (leads_call P _ KBcast (fun r => if (r =? 0)%nat then s else repeat (g r) (length s))
      (fun r m => if (r =? 0)%nat then send_strings l (acc ++ m) (rest r) else recv_strings (g r) (map (fun s => Z.of_nat (length s)) l) (acc ++ m) (rest r))).
    + intros r _. cbn [send_strings recv_strings map]. rewrite Nat2Z.id. now destruct (r =? 0)%nat.
    + intros r _. cbn [Nat.eqb]. destruct (r =? 0)%nat; [reflexivity|apply repeat_length].
    + cbn [dl Nat.eqb]. apply IH. rewrite <- app_assoc. exact H.
Qed.
Lemma args_lead {A} P n (g : nat -> Z) argv (rest : nat -> list (list Z) -> prog A) qs : leads P n (fun r => rest r (argv 0%nat)) qs ->
  leads P (S (S (length (argv 0%nat) + S n))) (fun r => driver_args r (g r) (argv r) (rest r)) qs.
Proof.
  intros H. unfold driver_args.
  apply (leads_call P _ KBcast (fun r => [Z.of_nat (length (argv r))]) _ _ _ (fun r _ => eq_refl)); [reflexivity|]. cbn [dl nth].
  eapply (leads_call P _ KBcast (fun r => if (r =? 0)%nat then map (fun s => Z.of_nat (length s)) (argv r) else repeat 0 (length (argv 0%nat)))
     (fun r m => if (r =? 0)%nat then send_strings (argv r) [] (fun out => Call KBarrier [] (fun _ => rest r out)) else recv_strings (g r) (nth 0 m []) [] (fun out => Call KBarrier [] (fun _ => rest r out)))).
  - intros r _. rewrite Nat2Z.id. now destruct (r =? 0)%nat.
  - intros r _. cbn [Nat.eqb]. rewrite map_length. destruct (Nat.eqb_spec r 0) as [->|_]; [now rewrite map_length|apply repeat_length].
  - cbn [dl nth Nat.eqb]. refine (leads_ext P _ _ _ _ _ (strings_lead P g (fun r out => Call KBarrier [] (fun _ => rest r out)) qs (argv 0%nat) [] (S n) _)).
    + intros r _. destruct (Nat.eqb_spec r 0) as [->|_]; reflexivity.
    + cbn [app]. apply (leads_call P n KBarrier (fun _ => []) (fun r _ => rest r (argv 0%nat))); [reflexivity|reflexivity|exact H].
Qed.

(* On any number of processors, whatever arguments the others were started with, whatever is in fresh memory and whatever the schedule:
   all processors get the arguments of processor 0, and none waits for ever. *)
Theorem C128_arguments P (argv : nat -> list (list Z)) (garbage : nat -> Z) :
  always_ends P (fun r => driver_args r (garbage r) (argv r) Ret) (fun _ => argv 0%nat).
Proof. eapply leads_ends. apply (args_lead P 0 garbage argv (fun _ => Ret)). apply leads_refl. reflexivity. Qed.
Print Assumptions C128_arguments.
(* Two processors; the second was started without arguments. *)
Example C128_arguments_case : exists n c, steps 2 n (start (fun r => driver_args r 7 (if (r =? 0)%nat then [[45; 97]; []] else []) Ret)) c /\ ended 2 c /\
  p_prog (c 1%nat) = Ret [[45; 97]; []].
Proof.
  set (argv := fun r => if (r =? 0)%nat then [[45; 97]; []] else [] : list (list Z)). destruct (args_lead 2 0 (fun _ => 7) argv (fun _ => Ret) (fun _ => Ret (argv 0%nat))) as (T & K & B & T0 & Tn & H1 & H2); [now apply leads_refl|].
  destruct (reach 2 _ T K B H1 _ T0 _ (le_n _)) as (k & c & S & At) || destruct (reach 2 _ T K B H1 H2 _ T0 _ (le_n _)) as (k & c & S & At). exists k, c. split; [exact S|]. split.
  - intros r Hr. rewrite (At r Hr). cbn [p_prog]. rewrite Tn by exact Hr. eauto.
  - rewrite (At 1%nat) by lia. cbn [p_prog]. rewrite Tn by lia. reflexivity.
Qed.

(* ---------- the ends of main *)
Lemma and_lead {A} P n (v : nat -> bool) (rest : nat -> bool -> prog A) qs : leads P n (fun r => rest r (forallb v (seq 0 P))) qs ->
  leads P (S n) (fun r => mpi_and (v r) (rest r)) qs.
Proof.
  intros H. apply (leads_call P n KAllreduce (fun r => [if v r then 1 else 0]) (fun r m => rest r (forallb (fun b => negb (nth 0 b 0 =? 0)) m))); [reflexivity|reflexivity|].
  revert H. apply leads_ext. intros r _. cbn [dl]. f_equal. generalize (seq 0 P). intros l. induction l as [|a l IH]; [reflexivity|]. cbn [map forallb nth]. rewrite IH. now destruct (v a).
Qed.
Lemma gathers_lead {A} P n lens (rest : nat -> prog A) qs : leads P n rest qs -> leads P (length lens + n) (fun r => gathers lens (rest r)) qs.
Proof.
  intros H. induction lens as [|k lens IH]; [exact H|]. cbn [length Nat.add gathers]. apply (leads_call P _ KGather (fun _ => repeat 0 k) (fun r _ => gathers lens (rest r))); [reflexivity|reflexivity|exact IH].
Qed.
Lemma finalize_lead P (a : Z) : leads P 1 (fun r : nat => finalize (Ret a)) (fun _ => Ret a).
Proof. apply (leads_call P 0 KFinalize (fun _ => []) (fun _ _ => Ret a)); [reflexivity|reflexivity|]. now apply leads_refl. Qed.
Lemma forallb_all P (v : nat -> bool) : (forall r, (r < P)%nat -> v r = true) -> forallb v (seq 0 P) = true.
Proof. intros H. apply forallb_forall. intros r Hr. apply in_seq in Hr. apply H. lia. Qed.
Lemma forallb_one P (v : nat -> bool) r : (r < P)%nat -> v r = false -> forallb v (seq 0 P) = false.
Proof. intros Hr Hv. apply not_true_is_false. intros E. rewrite forallb_forall in E. rewrite E in Hv; [discriminate|]. apply in_seq. lia. Qed.

(* If nothing goes wrong anywhere, all processors write the data and end with 0, whatever the schedule. *)
Theorem C129_success_partial P summary mpi_file (f : nat -> fate) :
  (forall r, (r < P)%nat -> parse_ok (f r) = true /\ create_ok (f r) = true /\ check_ok (f r) = true /\ run_ok (f r) = true) ->
  always_ends P (fun r => driver_main r true summary mpi_file (f r)) (fun _ => 0).
Proof.
  intros H. eapply leads_ends. unfold driver_main.
  apply and_lead. rewrite forallb_all by (intros r Hr; now apply H). cbn [negb andb].
  apply and_lead. rewrite forallb_all by (intros r Hr; now apply H). cbn [negb andb].
  apply and_lead. rewrite forallb_all by (intros r Hr; now apply H). cbn [negb andb].
  eapply (leads_call P _ KGather (fun _ => [0])); [intros r _; reflexivity|reflexivity|].
  apply and_lead. rewrite forallb_all by (intros r Hr; now apply H). cbn [negb andb].
  eapply (leads_call P _ KBarrier (fun _ => [])); [intros r _; reflexivity|reflexivity|].
  unfold write_data. eapply leads_ext. { intros r _. cbn [negb]. rewrite andb_false_r. reflexivity. }
  apply gathers_lead, gathers_lead. eapply (leads_call P _ KBarrier (fun _ => [])); [intros r _; reflexivity|reflexivity|]. apply finalize_lead.
Qed.
Print Assumptions C129_success_partial.
Example C129_success_case : always_ends 3 (fun r => driver_main r true [1%nat; 1%nat; 2%nat] [1%nat] (mkFate true true true true)) (fun _ => 0).
Proof. apply (C129_success_partial 3 _ _ (fun _ => mkFate true true true true)). intros r _. repeat split. Qed.
(* If the parser or the creation of the simulation fails on any processor, all processors end with 1, whatever the schedule. *)
Theorem C129_failure_partial P can_open summary mpi_file (f : nat -> fate) r0 : (r0 < P)%nat ->
  parse_ok (f r0) && create_ok (f r0) && check_ok (f r0) = false ->
  always_ends P (fun r => driver_main r can_open summary mpi_file (f r)) (fun _ => 1).
Proof.
  intros Hr Hf.
  assert (G : exists n, leads P n (fun r => driver_main r can_open summary mpi_file (f r)) (fun _ => Ret 1)).
  { unfold driver_main. destruct (forallb (fun r => parse_ok (f r)) (seq 0 P)) eqn:E1.
    2:{ eexists. apply and_lead. rewrite E1. apply finalize_lead. }
    assert (P1 : parse_ok (f r0) = true) by (rewrite forallb_forall in E1; apply E1, in_seq; lia).
    destruct (forallb (fun r => create_ok (f r)) (seq 0 P)) eqn:E2.
    2:{ eexists. apply and_lead. rewrite E1. cbn [negb andb]. apply and_lead. rewrite E2. apply finalize_lead. }
    assert (P2 : create_ok (f r0) = true) by (rewrite forallb_forall in E2; apply E2, in_seq; lia). rewrite P1, P2 in Hf. cbn [andb] in Hf.
    eexists. apply and_lead. rewrite E1. cbn [negb andb]. apply and_lead. rewrite E2. cbn [negb andb]. apply and_lead. rewrite (forallb_one P _ r0 Hr Hf). apply finalize_lead. }
  destruct G as (n & G). exact (leads_ends P n _ _ G).
Qed.
Print Assumptions C129_failure_partial.
Example C129_failure_case : parse_ok (mkFate true false true true) && create_ok (mkFate true false true true) && check_ok (mkFate true false true true) = false.
Proof. reflexivity. Qed.
(* If the run fails on a processor, processor 0 writes the data alone: some schedule has it in a reduction while another processor is in MPI_Finalize. *)
Theorem C129_run_refuted P can_open n summary mpi_file (f : nat -> fate) r0 : (2 <= P)%nat -> can_open = true ->
  (forall r, (r < P)%nat -> parse_ok (f r) = true /\ create_ok (f r) = true /\ check_ok (f r) = true) -> (r0 < P)%nat -> run_ok (f r0) = false ->
  exists k c, steps P k (start (fun r => driver_main r can_open (n :: summary) mpi_file (f r))) c /\ mixed_up P c.
Proof.
  intros HP -> H Hr Hf. eapply (leads_mixed P _ _ (fun r => if (r =? 0)%nat then write_data r true (n :: summary) mpi_file (finalize (Ret 1)) else finalize (Ret 1)) 0%nat 1%nat); [|lia|lia|reflexivity|reflexivity|discriminate].
  unfold driver_main.
  apply and_lead. rewrite forallb_all by (intros r Hr'; now apply H). cbn [negb andb].
  apply and_lead. rewrite forallb_all by (intros r Hr'; now apply H). cbn [negb andb].
  apply and_lead. rewrite forallb_all by (intros r Hr'; now apply H). cbn [negb andb].
  eapply (leads_call P _ KGather (fun _ => [0])); [intros r _; reflexivity|reflexivity|].
  apply and_lead. rewrite (forallb_one P _ r0 Hr Hf). cbn [negb]. now apply leads_refl.
Qed.
Print Assumptions C129_run_refuted.
Example C129_run_case : exists k c, steps 2 k (start (fun r => driver_main r true [1%nat] [] (mkFate true true true (r =? 0)%nat))) c /\ mixed_up 2 c.
Proof. apply (C129_run_refuted 2 true 1%nat [] [] (fun r => mkFate true true true (r =? 0)%nat) 1%nat); [lia|reflexivity|intros r _; repeat split|lia|reflexivity]. Qed.
(* If processor 0 cannot open the file for the summary, it leaves out the reductions: some schedule has it in a barrier while another processor is in a reduction. *)
Theorem C129_open_refuted P a b (f : nat -> fate) : (2 <= P)%nat ->
  (forall r, (r < P)%nat -> parse_ok (f r) = true /\ create_ok (f r) = true /\ check_ok (f r) = true /\ run_ok (f r) = true) ->
  exists k c, steps P k (start (fun r => driver_main r false (repeat 1%nat (S a)) (repeat 1%nat b) (f r))) c /\ mixed_up P c.
Proof.
  intros HP H.
  eapply (leads_mixed P _ _ (fun r => if (r =? 0)%nat then Call KBarrier [] (fun _ => finalize (Ret 0)) else gathers (repeat 1%nat (S a)) (Call KBarrier [] (fun _ => finalize (Ret 0)))) 0%nat 1%nat); [|lia|lia|reflexivity|reflexivity|discriminate].
  unfold driver_main.
  apply and_lead. rewrite forallb_all by (intros r Hr'; now apply H). cbn [negb andb].
  apply and_lead. rewrite forallb_all by (intros r Hr'; now apply H). cbn [negb andb].
  apply and_lead. rewrite forallb_all by (intros r Hr'; now apply H). cbn [negb andb].
  eapply (leads_call P _ KGather (fun _ => [0])); [intros r _; reflexivity|reflexivity|].
  apply and_lead. rewrite forallb_all by (intros r Hr'; now apply H). cbn [negb andb].
  eapply (leads_call P _ KBarrier (fun _ => [])); [intros r _; reflexivity|reflexivity|].
  refine (leads_ext P _ _ (fun r => gathers (repeat 1%nat b) (if (r =? 0)%nat then Call KBarrier [] (fun _ => finalize (Ret 0)) else gathers (repeat 1%nat (S a)) (Call KBarrier [] (fun _ => finalize (Ret 0))))) _ _ _).
  { intros r _. cbv beta. unfold write_data.
    assert (G1 : forall l1 l2 (p : prog Z), gathers l1 (gathers l2 p) = gathers (l1 ++ l2) p). { induction l1 as [|k l1 IH]; intros l2 p; [reflexivity|]. cbn [gathers app]. now rewrite IH. }
    destruct (r =? 0)%nat; cbn [andb negb]; [reflexivity|]. rewrite !G1, <- !repeat_app. f_equal. f_equal. lia. }
  apply gathers_lead. now apply leads_refl.
Qed.
Print Assumptions C129_open_refuted.
