(* Vocabulary for the demon (C47): what there is to count, independent of how it is counted. *)
From Coq Require Import QArith List Bool ZArith.
From Verif Require Import Model_Demon.
Import ListNotations.
Local Open Scope Q_scope.

(* Particles that can move; on the left of the partition at c; stored side *)
Definition mobile (p : part) : bool := negb (Qeq_bool (p_im p) 0).
Definition on_left (c : Q) (p : part) : bool := Qle_bool (hd 0 (p_x p)) c.
Definition from_left (p : part) : bool := (p_side p =? 0)%Z.
Definition from_right (p : part) : bool := (p_side p =? 1)%Z.
(* Those that went to the other side since the sides were stored *)
Definition went_right (c : Q) (p : part) : bool := mobile p && negb (on_left c p) && negb (from_right p).
Definition went_left (c : Q) (p : part) : bool := mobile p && on_left c p && negb (from_left p).
Definition number (f : part -> bool) (l : list part) : Z := Z.of_nat (length (filter f l)).
(* The kinetic energy of those particles *)
Definition kinetic (f : part -> bool) (l : list part) : Q := fold_right (fun p s => 1 / p_im p * (1#2) * sq (p_v p) + s) 0 (filter f l).
(* The stored sides are 0 or 1. *)
Definition sided (l : list part) : Prop := forall p, In p l -> p_side p = 0%Z \/ p_side p = 1%Z.

(* It is time for a check *)
Definition due (d : demon) (s : sys) : Prop := d_tau d <= s_time s - d_last d /\ d_start d < s_time s.

(* The same particles, in the same places of memory, though they may have moved *)
Definition in_place (l l' : list part) : Prop :=
  Forall2 (fun p p' => p_id p' = p_id p /\ p_im p' = p_im p /\ p_side p' = p_side p /\ p_alive p' = p_alive p) l l'.

(* A run: n mobile particles; between the calls of the demon particles may move, be reordered or replaced, and time may change,
   in any way, only that there are always n mobile ones. *)
Inductive demon_run (n : Z) : demon * sys -> Prop :=
| run_start d s ids c t : d = new_demon ids c t -> number mobile (s_parts s) = n -> demon_run n (pre_integrate (d, s))
| run_env d s s' : demon_run n (d, s) -> number mobile (s_parts s') = n -> demon_run n (d, s')
| run_tau d s t : demon_run n (d, s) -> demon_run n (setTau t d, s)
| run_rule d s k : demon_run n (d, s) -> demon_run n (setDemon k d, s)
| run_step ds ds' : demon_run n ds -> pre_forces ds = Some ds' -> demon_run n ds'.
