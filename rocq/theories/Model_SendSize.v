(* Announcing the number of particles to a neighbour: MPIObject::send_single (src/parallel/mpi-communication.hpp 166-172)
   as called by send_particle_data and send_particle_data_relative (src/parallel/kdtreetopology.tpp 1-34).

   MPI_Isend is given the address of a local variable of the caller and the request is not kept. MPI reads the variable
   at some moment between the call and the completion of the request; nothing waits for the completion. All calls from
   one loop have the variable at the same address; after the loop the memory belongs to other functions. *)
From Verif Require Import Lib.

Inductive event :=
| Call (size : nat)       (* send_particle_data...: int size = ...; send_single(size, ...) *)
| Reuse (v : nat)         (* another function writes to that memory *)
| Transport (i : nat).    (* MPI reads the value of the i-th call *)

(* The values read, with the number of the call they are read for. slot: the contents of the memory. *)
Fixpoint announced (slot : nat) (evs : list event) : list (nat * nat) :=
  match evs with
  | [] => []
  | Call n :: evs' => announced n evs'
  | Reuse v :: evs' => announced v evs'
  | Transport i :: evs' => (i, slot) :: announced slot evs'
  end.
(* The sizes of the calls, in order. *)
Definition sizes_of (evs : list event) : list nat :=
  flat_map (fun e => match e with Call n => [n] | _ => [] end) evs.
