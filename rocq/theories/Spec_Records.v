(* Specification vocabulary for C143-C146. *)
From Coq Require Import QArith Qabs List Bool ZArith.
From Verif Require Import Model_Records.
From Verif Require Model_Measure Spec_Cluster.
Import ListNotations.
Local Open Scope Q_scope.

(* the particles there are among the places (those that were not removed) *)
Definition there (l : list place) : list place := filter (fun p => (0 <=? Model_Measure.s_type (fst p))%Z) l.
(* how much force f' has more than f, over all components *)
Fixpoint pushed (f f' : list Q) : Q := match f, f' with a :: f1, b :: f1' => Qabs (b - a) + pushed f1 f1' | _, _ => 0 end.
Fixpoint pushes (ps : list (list Q * list Q * list Q)) (fs : list (list Q)) : Q :=
  match ps, fs with p :: ps', f' :: fs' => pushed (snd p) f' + pushes ps' fs' | _, _ => 0 end.
(* sizes are those of the groups of connected particles: each particle belongs to one, two connected ones to the same *)
Definition sizes_of_groups (types : list Z) (near : nat -> list nat) (n : nat) (sizes : list Z) : Prop :=
  exists c : nat -> Z, (forall i, (i < n)%nat -> (0 <= c i < Z.of_nat (length sizes))%Z) /\
    (forall i j, (i < n)%nat -> (j < n)%nat -> (c i = c j <-> Spec_Cluster.connected true types near i j)) /\
    (forall k, (k < length sizes)%nat -> (0 < nth k sizes 0)%Z /\ nth k sizes 0%Z = Z.of_nat (length (filter (fun i => (c i =? Z.of_nat k)%Z) (seq 0 n)))).
