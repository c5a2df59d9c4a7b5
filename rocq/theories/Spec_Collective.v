(* Vocabulary for C128-C130: what "always works" means for a program on P processors. *)
From Verif Require Import Lib Model_Collective.

(* Whatever the order in which the processors go on: MPI is never used wrongly, no processor waits for ever (some processor can go on unless all have
   ended), the number of steps is bounded, and each processor r ends with R r. *)
Definition always_ends {A} (P : nat) (ps : nat -> prog A) (R : nat -> A) : Prop :=
  (exists N, forall n c, steps P n (start ps) c -> (n <= N)%nat) /\
  forall n c, steps P n (start ps) c ->
    ~ mixed_up P c /\ (ended P c \/ exists c', step P c c') /\ (ended P c -> forall r, (r < P)%nat -> p_prog (c r) = Ret (R r)).
