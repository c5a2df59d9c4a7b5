(* Vocabulary for C104, C105. *)
From Verif Require Import Lib Model_Geometry Model_Cells Model_Verlet Model_Sync.
Local Open Scope Q_scope.

(* all processors count the same number of steps since the last rebuild and have the same delay *)
Definition in_step (t d : Z) (ss : list hstate) : Prop := Forall (fun s => steps_since s = t /\ delay_steps s = d) ss.
(* the findings of a step: one per processor, each has particles, and with a fixed number of steps between rebuilds none is
   asked for on some processors only *)
Definition regular (dtype : Z) (n : nat) (fs : list found) : Prop :=
  length fs = n /\ (forall f, In f fs -> f_particles f = true) /\
  (dtype = 0%Z \/ forall f f', In f fs -> In f' fs -> f_flag f = f_flag f').
(* the processor finds in this step that its particles have moved too far *)
Definition finds (f : found) (s : hstate) : Prop :=
  f_check f = true /\ f_inter f = true /\ update_delay s < f_now f - last_update s.
(* ... it has found it, in this step or in an earlier one since the last rebuild *)
Definition has_found (f : found) (s : hstate) : Prop := requires_remake s = true \/ finds f s.
(* the number of the step after which it found it *)
Definition found_after (f : found) (s : hstate) (m : Z) : Prop :=
  (requires_remake s = true /\ m = last_remake_steps s) \/ (requires_remake s = false /\ finds f s /\ m = (steps_since s + 1)%Z).
