(* Vocabulary for modifiers (C68-C73). *)
From Coq Require Import QArith List.
Import ListNotations.
Local Open Scope Q_scope.

(* the time that a list of steps (time step, forces) takes *)
Definition elapsed {A} (steps : list (Q * A)) : Q := fold_right (fun a s => fst a + s) 0 steps.
(* the squared length of the first dims components *)
Fixpoint length2 (dims : nat) (u : nat -> Q) : Q := match dims with O => 0 | S n => length2 n u + u n * u n end.
(* the mass of the movable members (positive inverse mass) of a group *)
Fixpoint movable_mass (ims : list Q) : Q := match ims with [] => 0 | im :: t => (if Qlt_le_dec 0 im then 1 / im else 0) + movable_mass t end.
