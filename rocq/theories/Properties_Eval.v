(* C40: arithmetic expressions in configuration files *)
From Coq Require Import List Bool Ascii String QArith Arith Lia.
From Verif Require Import Model_Eval Spec_Eval Proofs_Eval.
Import ListNotations.
Local Open Scope char_scope.
Notation "'txt' s" := (list_ascii_of_string s%string) (at level 5, only parsing).

(* Full statement (false: see below): whatever the expression, the value is the usual one.
   Proved: if no subtracted product is followed by another + or - in the same sum. Missing: those expressions, expressions with signs
   (-x as an operand), spaces after the last closing parenthesis. number is any way of reading numbers. *)
Theorem C40_expression_value_partial : forall number variables e s q,
  writes_e e s -> fine_e e -> value_e number variables e = Some q ->
  exists q', evaluate number variables s = Gives q' /\ (q' == q)%Q.
Proof. exact evaluate_written. Qed.
Print Assumptions C40_expression_value_partial.

(* decimal digits *)
Definition digits (a : list ascii) : Q := inject_Z (fold_left (fun n c => 10 * n + (Z.of_nat (nat_of_ascii c) - 48))%Z a 0%Z).
Definition Nm (s : string) : factor := FAtom (list_ascii_of_string s).
Definition tm (f : factor) : term := TFac f.
Example C40_case_expr : expr :=   (* 12 -n*( 7 - 2/ 4)  *)
  ESub (ETerm (tm (Nm "12"))) (TMul (tm (Nm "n")) (FPar (ESub (ETerm (tm (Nm "7"))) (TDiv (tm (Nm "2")) (Nm "4"))))).
Ltac name := split; [discriminate|repeat (constructor; [unfold plain; cbn; intuition discriminate|]); constructor].
Example C40_case :
  writes_e C40_case_expr (txt "12 -n*( 7 - 2/ 4)") /\ fine_e C40_case_expr /\
  value_e digits [(txt "n", txt "3")] C40_case_expr = Some (12 - 3 * (7 - 2 / 4))%Q.
Proof.
  split; [|split; [cbn; tauto|vm_compute; reflexivity]].
  apply (WSub _ _ (txt "12") 1 (txt "n*( 7 - 2/ 4)")).
  - apply WTerm, WFac, (WAtom (txt "12") 0). name.
  - apply (WMul _ _ (txt "n") 0 (txt "( 7 - 2/ 4)")).
    + apply WFac, (WAtom (txt "n") 0). name.
    + apply (WPar _ (txt " 7 - 2/ 4") 0 0). apply (WSub _ _ (txt " 7") 1 (txt " 2/ 4")).
      * apply WTerm, WFac, (WAtom (txt "7") 1). name.
      * apply (WDiv _ _ (txt " 2") 0 (txt " 4")); [apply WFac, (WAtom (txt "2") 1)|apply (WAtom (txt "4") 1)]; name.
Qed.

(* Evaluation ends, whatever the text *)
Theorem C40_evaluation_terminates : forall number variables s, evaluate number variables s <> Unfinished.
Proof. exact evaluate_finishes. Qed.
Print Assumptions C40_evaluation_terminates.
Example C40_terminates_case : evaluate digits [] (txt "((-(--)") = Undefined \/ exists q, evaluate digits [] (txt "((-(--)") = Gives q.
Proof. destruct (evaluate digits [] (txt "((-(--)")) eqn:E; [exfalso; exact (C40_evaluation_terminates _ _ _ E)|left; reflexivity|right; eexists; reflexivity]. Qed.

(* The code gives 1 - 2*3 + 4 the value -9: what follows a subtracted product is subtracted too *)
Definition bad_sum : expr := EAdd (ESub (ETerm (tm (Nm "1"))) (TMul (tm (Nm "2")) (Nm "3"))) (tm (Nm "4")).
Theorem C40_usual_value_refuted : exists e s q q', writes_e e s /\ value_e digits [] e = Some q /\ evaluate digits [] s = Gives q' /\ ~ (q' == q)%Q.
Proof.
  exists bad_sum, (txt "1-2*3+4"), (1 - 2 * 3 + 4)%Q, (1 - (2 * 3 + 4))%Q. split.
  - apply (WAdd _ _ (txt "1-2*3") 0 (txt "4")).
    + apply (WSub _ _ (txt "1") 0 (txt "2*3")); [apply WTerm, WFac, (WAtom (txt "1") 0); name|].
      apply (WMul _ _ (txt "2") 0 (txt "3")); [apply WFac, (WAtom (txt "2") 0); name|apply (WAtom (txt "3") 0); name].
    + apply WFac, (WAtom (txt "4") 0). name.
  - split; [vm_compute; reflexivity|]. split; [vm_compute; reflexivity|]. intros H. apply Qeq_bool_iff in H. vm_compute in H. discriminate.
Qed.
Print Assumptions C40_usual_value_refuted.

(* A negative number as a factor: 2*-3 is read as 2*(nothing) - 3 *)
Theorem C40_negative_factor_refuted : evaluate digits [] (txt "2*-3") = evaluate digits [] (txt "0-3").
Proof. vm_compute. reflexivity. Qed.
Print Assumptions C40_negative_factor_refuted.

(* A space after the last parenthesis changes the value: 1+(2) followed by a space has the value 1 + (the number spelled by nothing) *)
Theorem C40_trailing_space_refuted : forall number,
  exists q, evaluate number [] (txt "1+(2) ") = Gives q /\ q = (number (txt "1") + number [])%Q /\
  evaluate number [] (txt "1+(2)") = Gives (number (txt "1") + number (txt "2"))%Q.
Proof. intros number. eexists. split; [reflexivity|]. split; reflexivity. Qed.
Print Assumptions C40_trailing_space_refuted.

(* No value at all: the empty text and an empty parenthesis dereference a null pointer, a leading + (or * or /) reads an uninitialised pointer *)
Theorem C40_undefined_texts_refuted : forall number variables, evaluate number variables [] = Undefined /\ evaluate number variables (txt "()") = Undefined /\
  evaluate number variables (txt "+1") = Undefined /\ evaluate number variables (txt "(*2)") = Undefined.
Proof. intros. repeat split; reflexivity. Qed.
Print Assumptions C40_undefined_texts_refuted.
