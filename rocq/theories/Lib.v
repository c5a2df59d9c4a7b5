(* General-purpose helpers (no GFlow code is modelled here). *)
From Coq Require Export List ZArith QArith Qabs Qround Lia Lqa Bool.
From Coq Require Import ZifyBool ZifyNat.
Export ListNotations.

(* Boolean strict comparison on Q: stands for the C++ expression [a < b]. *)
Definition Qltb (a b : Q) : bool := negb (Qle_bool b a).

Lemma Qltb_spec a b : reflect (a < b)%Q (Qltb a b).
Proof.
  unfold Qltb. destruct (Qle_bool b a) eqn:E; constructor.
  - apply Qle_bool_iff in E. apply Qle_not_lt. exact E.
  - apply Qnot_le_lt. intro H. apply Qle_bool_iff in H. congruence.
Qed.

Lemma Qleb_spec a b : reflect (a <= b)%Q (Qle_bool a b).
Proof.
  destruct (Qle_bool a b) eqn:E; constructor.
  - now apply Qle_bool_iff.
  - intro H. apply Qle_bool_iff in H. congruence.
Qed.

Definition Qsqr (a : Q) : Q := (a * a)%Q.
Definition Qmaxb (a b : Q) : Q := if Qltb a b then b else a.
Definition Qminb (a b : Q) : Q := if Qltb b a then b else a.

Ltac qcases :=
  repeat match goal with
  | |- context [Qltb ?a ?b] => destruct (Qltb_spec a b)
  | H : context [Qltb ?a ?b] |- _ => destruct (Qltb_spec a b)
  | |- context [Qle_bool ?a ?b] => destruct (Qleb_spec a b)
  | H : context [Qle_bool ?a ?b] |- _ => destruct (Qleb_spec a b)
  end.

(* Case analysis on absolute values. *)
Lemma Qabs_cases (x : Q) : (0 <= x /\ Qabs x == x)%Q \/ (x < 0 /\ Qabs x == - x)%Q.
Proof.
  destruct (Qlt_le_dec x 0) as [H|H].
  - right. split; [exact H|]. apply Qabs_neg. lra.
  - left. split; [exact H|]. now apply Qabs_pos.
Qed.

Ltac qabs x := let H := fresh "Habs" in
  destruct (Qabs_cases x) as [[? H]|[? H]].

Lemma nth_error_split_map {A B} (f : A -> B) l i b :
  nth_error (map f l) i = Some b -> exists a, nth_error l i = Some a /\ b = f a.
Proof.
  revert i; induction l as [|x l IH]; intros [|i]; simpl; intros H; try discriminate.
  - injection H as <-. eauto.
  - eauto.
Qed.

Definition Qsum (l : list Q) : Q := fold_right Qplus 0%Q l.

Lemma Qsq_nonneg (a : Q) : (0 <= a * a)%Q.
Proof. nra. Qed.

Lemma Forall2_len {A B} (P : A -> B -> Prop) l l' : Forall2 P l l' -> length l = length l'.
Proof. induction 1; simpl; auto. Qed.
