(* Ghost particles across processors: create_ghost_particles, send_ghost_updates, recv_ghost_updates
   (src/parallel/kdtreetopology.cpp 153-290, kdtreetopology.tpp 17-58) as communication rounds. *)
From Coq Require Import String.
From Verif Require Import Lib Model_Geometry Model_Store Model_Buffer Model_Topology Model_Messages.
Local Open Scope list_scope.

(* What a processor holds: its own particles, the ghosts (particle_type 1), send_ghost_list, recv_ghost_sizes, and the
   running id of recv_ghost_updates. *)
Record gproc := mkG { g_own : store; g_gho : store; g_send : list (list nat); g_sizes : list nat; g_at : nat }.

(* 166-172: is the particle to be sent to the i-th neighbour. cut: 2*sg*max cutoff of its type + skin depth.
   Simplification: a particle with a NaN coordinate is not sent. *)
Definition near (box : box) (nbs : list (nat * bounds)) (cut : part -> Q) (i : nat) (p : part) : bool :=
  match sequence (p_x p) with
  | None => false
  | Some xs => match domain_overlaps box nbs xs (cut p) with
               | Some l => existsb (Nat.eqb i) l
               | None => false
               end
  end.
Definition ghost_ids (box : box) (nbs : list (nat * bounds)) (cut : part -> Q) (i : nat) (s : store) : list nat :=
  filter (fun id => match nth_error (st_mem s) id with Some p => near box nbs cut i p | None => false end)
         (seq 0 (st_size s)).

(* kdtreetopology.tpp 17-34 *)
Definition send_relative (box : box) (dw : nat) (nb : bounds) (ids : list nat) (buf : list word) (s : store) : option message :=
  let size := length ids in
  if (0 <? size)%nat then
    match pack_buffer_relative box (center nb) dw ids buf s with
    | Some buf' => Some (size, firstn (size * dw) buf')
    | None => None
    end
  else Some (size, []).

(* create_ghost_particles: 158-182. None: domain_overlaps needs at most four dimensions. *)
Definition create_local (box : box) (t : kdtree) (dw : nat) (cut : part -> Q) (bufs : nat -> list word) (k : nat) (g : gproc)
  : option (list (nat * message) * gproc) :=
  if (4 <? length box)%nat then None else
  let nbs := neighbors box k t in
  let lists := map (fun i => ghost_ids box nbs cut i (g_own g)) (seq 0 (length nbs)) in
  match sequence (map (fun inb => send_relative box dw (snd (snd inb)) (nth (fst inb) lists []) (bufs (fst inb)) (g_own g))
                      (combine (seq 0 (length nbs)) nbs)) with
  | None => None
  | Some ms => Some (combine (map fst nbs) ms, mkG (g_own g) (set_number 0 (g_gho g)) lists [] 0)
  end.
(* 184-197 *)
Definition create_accept (dw : nat) (m : message) (g : gproc) : option gproc :=
  match recv_new_particle_data dw m (g_gho g) with
  | None => None
  | Some s1 => Some (mkG (g_own g) (set_number (st_number s1 + Z.of_nat (fst m))%Z s1) (g_send g) (g_sizes g ++ [fst m]) (g_at g))
  end.
Definition create_round (box : box) (t : kdtree) (dw : nat) (cut : part -> Q) (bufs : nat -> nat -> list word) : round gproc :=
  mkRound send_ghost_tag true (fun k => map fst (neighbors box k t))
    (fun k g => create_local box t dw cut (bufs k) k g) (fun _ _ _ => 0%nat) (fun _ _ m g => create_accept dw m g).

(* send_ghost_updates: 203-222 *)
Definition update_message (box : box) (l : ghost_layout) (nb : bounds) (ids : list nat) (buf : list word) (s : store) : option message :=
  let size := length ids in
  if (0 <? size)%nat then
    match pack_ghost_buffer box l (center nb) ids buf s with
    | Some buf' => Some (size, firstn (size * ghost_width l (st_dims s)) buf')
    | None => None
    end
  else Some (size, []).
Definition update_local (box : box) (t : kdtree) (l : ghost_layout) (bufs : nat -> list word) (k : nat) (g : gproc)
  : option (list (nat * message) * gproc) :=
  let nbs := neighbors box k t in
  match sequence (map (fun inb => update_message box l (snd (snd inb)) (nth (fst inb) (g_send g) []) (bufs (fst inb)) (g_own g))
                      (combine (seq 0 (length nbs)) nbs)) with
  | None => None
  | Some ms => Some (combine (map fst nbs) ms, mkG (g_own g) (g_gho g) (g_send g) (g_sizes g) 0)
  end.
(* recv_ghost_updates: 246-259 *)
Definition update_accept (l : ghost_layout) (m : message) (g : gproc) : option gproc :=
  if (0 <? fst m)%nat then
    match unpack_ghost_buffer l (fst m) (g_at g) (snd m) (g_gho g) with
    | Some s1 => Some (mkG (g_own g) s1 (g_send g) (g_sizes g) (g_at g + fst m))
    | None => None
    end
  else Some g.
Definition update_round (box : box) (t : kdtree) (l : ghost_layout) (bufs : nat -> nat -> list word) : round gproc :=
  mkRound update_ghost_tag false (fun k => map fst (neighbors box k t))
    (fun k g => update_local box t l (bufs k) k g)
    (fun k g n => match index_of n (neighbors box k t) with Some i => nth i (g_sizes g) 0%nat | None => 0%nat end)
    (fun _ _ m g => update_accept l m g).

(* exchange_particles on what a processor holds; SimData::removeGhostParticles; any local computation. *)
Definition exchange_round_g (box : box) (t : kdtree) (dw : nat) (bufs : nat -> nat -> list word) : round gproc :=
  mkRound send_particle_tag true (fun k => map fst (neighbors box k t))
    (fun k g => match exchange_send box t k dw (bufs k) (g_own g) with
                | Some (out, s) => Some (out, mkG s (g_gho g) (g_send g) (g_sizes g) (g_at g)) | None => None end)
    (fun _ _ _ => 0%nat)
    (fun _ _ m g => match recv_new_particle_data dw m (g_own g) with
                    | Some s => Some (mkG s (g_gho g) (g_send g) (g_sizes g) (g_at g)) | None => None end).
Definition local_round {T} (f : nat -> T -> option T) : round T :=
  mkRound send_particle_tag true (fun _ => []) (fun k s => option_map (pair []) (f k s)) (fun _ _ _ => 0%nat) (fun _ _ _ s => Some s).
Definition remove_ghosts_round : round gproc :=
  local_round (fun _ g => Some (mkG (g_own g) (removeGhostParticles (g_gho g)) (g_send g) (g_sizes g) (g_at g))).
