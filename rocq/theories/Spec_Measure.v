(* Vocabulary for what is recorded about the particles as a whole (C74-C77). procs: the slots of the stores of the processors. *)
From Coq Require Import QArith List Bool ZArith.
From Verif Require Import Model_Measure.
Import ListNotations.
Local Open Scope Q_scope.

(* the particles there are: those that were not removed, on all processors *)
Definition particles (procs : list (list slot)) : list slot := filter (fun s => (0 <=? s_type s)%Z) (concat procs).
(* those that can move: with a finite mass *)
Definition movables (procs : list (list slot)) : list slot := filter (fun s => if Qlt_le_dec 0 (s_im s) then true else false) (particles procs).
Definition no_removed (procs : list (list slot)) : Prop := forall s, In s (concat procs) -> (0 <= s_type s)%Z.
Fixpoint Sum {A} (f : A -> Q) (l : list A) : Q := match l with [] => 0 | a :: t => f a + Sum f t end.
Definition number {A} (l : list A) : Q := inject_Z (Z.of_nat (length l)).
Definition mass (s : slot) : Q := 1 / s_im s.
(* m v^2 / 2; I w^2 / 2 with I = m r^2 / 2 *)
Definition kinetic_energy (s : slot) : Q := (1#2) * mass s * Sum (fun c => c * c) (s_v s).
Definition rotational_energy (s : slot) : Q := (1#2) * ((1#2) * mass s * (s_sg s * s_sg s)) * (s_om s * s_om s).
(* inside a box, lower faces included and upper faces not *)
Fixpoint inside (bs : list (Q * Q)) (x : list Q) : Prop := match bs, x with [], _ => True | b :: bs', c :: x' => fst b <= c /\ c < snd b /\ inside bs' x' | _ :: _, [] => False end.
