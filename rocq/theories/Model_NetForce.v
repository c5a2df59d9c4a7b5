(* The recorded net force on a group of particles, on any number of processors: dataobjects/multigraphobjects/groupnetforce.cpp
   with other/group.cpp and dataobjects/dataobjecttypes/data-base/multigraphdata.cpp. Paths under /repo/GFlowSim/src.
   Exact rationals; None: memory outside an array is read, or a force is not a number. Every recording is one call of post_step
   in which _check says that it is time (C08); what happens to the particles between two recordings is any change of the stores. *)
From Verif Require Import Lib Model_Store Model_Group Model_Topology.
From Verif Require Model_Series.
Local Open Scope Z_scope.

(* plusEqVec (utility/vectormath.hpp): a[d] += b[d] for d < dims *)
Definition plus_vec (dims : nat) (a b : list Q) : list Q := map (fun d => (nth d a 0 + nth d b 0)%Q) (seq 0 dims).
(* sim_data->F()(id): the force on the particle at a local address *)
Definition force_read (s : store) (lid : Z) : option (list Q) :=
  if lid <? 0 then None else match nth_error (st_mem s) (Z.to_nat lid) with Some p => sequence (p_f p) | None => None end.
(* group.cpp 176-186 findNetForce *)
Definition findNetForce (s : store) (g : group) : option (list Q) :=
  let zero := repeat 0%Q (st_dims s) in
  if (group_size g =? 0)%nat then Some zero
  else fold_left (fun acc lid => match acc, force_read s lid with Some a, Some f => Some (plus_vec (st_dims s) a f) | _, _ => None end) (g_lids g) (Some zero).

(* groupnetforce.cpp 15-23 on one processor: locals_changed is the flag st_locals of the store (datamaster.cpp 315-317), set
   since the last recording; it is cleared here, so that the flag of the store at the next recording tells of changes after this one *)
Definition post_step_local (s : store) (g : group) : option (group * list Q) :=
  match (if st_locals s then update_local_ids s g else Some g) with
  | None => None
  | Some g' => option_map (pair g') (findNetForce s g')
  end.

(* groupnetforce.cpp 11-25 on P processors at time t; ss: the stores by rank; m: the series, which processor 0 keeps *)
Definition record (P : nat) (t : Q) (ss : nat -> store) (st : list group * Model_Series.mg) : option (list group * Model_Series.mg) :=
  match sequence (map (fun kg => post_step_local (ss (fst kg)) (snd kg)) (combine (seq 0 P) (fst st))) with
  | None => None
  | Some l => option_map (pair (map fst l)) (Model_Series.gatherData t (st_dims (ss 0%nat)) (map snd l) (snd st))
  end.
(* the recordings of a run, in order: the times, and the stores at these times *)
Definition recordings (P : nat) (h : list (Q * (nat -> store))) (st : list group * Model_Series.mg) : option (list group * Model_Series.mg) :=
  fold_left (fun o e => match o with None => None | Some x => record P (fst e) (snd e) x end) h (Some st).

(* groupnetforce.cpp 5-9 and circle-creator.cpp 45-48, 77-80: the object on each processor with the ids that were added there *)
Definition start (P dims : nat) (ids : nat -> list Z) : option (list group * Model_Series.mg) :=
  option_map (pair (map (fun k => fold_left (fun g id => group_add id g) (ids k) group_of_gflow) (seq 0 P))) (Model_Series.create (Z.of_nat dims)).
