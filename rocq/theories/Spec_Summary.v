(* Vocabulary for C130. *)
From Coq Require Import QArith List Bool ZArith.
From Verif Require Import Lib Model_Summary Spec_Bins.
Import ListNotations.
Local Open Scope Q_scope.

(* All places of all processors, in order of the processors. *)
Definition everything (rs : list rank_data) : list slot := flat_map d_slots rs.
(* A processor without removed particles and without ghosts *)
Definition tidy (ntypes : nat) (r : rank_data) : Prop :=
  d_owned r = Z.of_nat (length (d_slots r)) /\ d_number r = d_owned r /\ forall s, In s (d_slots r) -> (0 <= s_type s < Z.of_nat ntypes)%Z.
(* A particle that is there and can be moved *)
Definition movable (s : slot) : Prop := (0 <= s_type s)%Z /\ 0 < s_im s.
(* m is the smallest, or the largest, value of q for the particles *)
Definition smallest (q : slot -> Q) (ps : list slot) (m : Q) : Prop := (exists s, In s ps /\ q s == m) /\ forall s, In s ps -> m <= q s.
Definition largest (q : slot -> Q) (ps : list slot) (m : Q) : Prop := (exists s, In s ps /\ q s == m) /\ forall s, In s ps -> q s <= m.
