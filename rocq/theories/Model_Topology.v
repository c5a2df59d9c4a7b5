(* The processor decomposition and the exchange of particles: src/parallel/kdtreetopology.{cpp,tpp}, src/base/topology.cpp
   (paths under /repo/GFlowSim/src, USE_MPI == 1). Reals are exact rationals. Message passing itself is in
   Model_Messages. *)
From Coq Require Import String.
From Verif Require Import Lib Model_Geometry Model_Store Model_Buffer.
Local Open Scope list_scope.

(* kdtreetopology.hpp 10-43: KDTreeTopNode. *)
Inductive kdtree :=
| Leaf (rank : nat) (b : bounds)
| Node (b : bounds) (dim : nat) (split : Q) (l r : kdtree).

Definition min_at (b : bounds) (d : nat) : Q := match nth_error b d with Some (m, _) => m | None => 0 end.
(* bounds.hpp: Bounds::wd *)
Definition wd_at (b : bounds) (d : nat) : Q := match nth_error b d with Some (m, M) => M - m | None => 0 end.
Fixpoint set_max (d : nat) (v : Q) (b : bounds) : bounds :=
  match b, d with
  | [], _ => []
  | (m, _) :: b', O => (m, v) :: b'
  | mM :: b', S d' => mM :: set_max d' v b'
  end.
Fixpoint set_min (d : nat) (v : Q) (b : bounds) : bounds :=
  match b, d with
  | [], _ => []
  | (_, M) :: b', O => (v, M) :: b'
  | mM :: b', S d' => mM :: set_min d' v b'
  end.

(* kdtreetopology.cpp 295-303: the first of the widest dimensions. *)
Fixpoint widest_from (d : nat) (b : bounds) (dim : nat) (maxwidth : Q) : nat :=
  match b with
  | [] => dim
  | (m, M) :: b' => if Qltb maxwidth (M - m) then widest_from (S d) b' d (M - m) else widest_from (S d) b' dim maxwidth
  end.
Definition widest (b : bounds) : nat := widest_from 0 b 0 (wd_at b 0).

(* kdtreetopology.cpp 281-344. fuel: the recursion halves endP - startP. *)
Fixpoint compute_decomp (fuel : nat) (startP endP : nat) (b : bounds) : kdtree :=
  match fuel with
  | O => Leaf startP b
  | S fuel' =>
      let dim := widest b in
      let nl := ((endP - startP) / 2)%nat in
      let nr := ((endP - startP) - nl)%nat in
      let fraction := inject_Z (Z.of_nat nl) / inject_Z (Z.of_nat (endP - startP)) in
      let width := fraction * wd_at b dim in
      let bl := set_max dim (min_at b dim + width) b in
      let br := set_min dim (min_at b dim + width) b in
      Node b dim (min_at b dim + width)
        (if (1 <? nl)%nat then compute_decomp fuel' startP (endP - nr) bl else Leaf startP bl)
        (if (1 <? nr)%nat then compute_decomp fuel' (endP - nr) endP br else Leaf (endP - 1) br)
  end.
(* computeTopology, 16-31 *)
Definition topology_tree (numProc : nat) (b : bounds) : kdtree := compute_decomp numProc 0 numProc b.

(* The leaves in the order in which compute_decomp creates them. *)
Fixpoint leaves (t : kdtree) : list (nat * bounds) :=
  match t with Leaf r b => [(r, b)] | Node _ _ _ l r => leaves l ++ leaves r end.
(* process_bounds of the processor rank: the last assignment, 334-341 (the right leaf is preferred). *)
Definition process_bounds (rank : nat) (t : kdtree) : option bounds :=
  option_map snd (find (fun rb => (fst rb =? rank)%nat) (rev (leaves t))).
(* all_processor_nodes, 322 and 330 *)
Definition all_processor_nodes (rank : nat) (t : kdtree) : list (nat * bounds) :=
  filter (fun rb => negb (fst rb =? rank)%nat) (leaves t).

(* Bounds::contains (bounds.cpp 86-93) for a position that may have NaN components: comparisons with NaN are false. *)
Fixpoint containsN (b : bounds) (x : list num) : bool :=
  match b, x with
  | (m, M) :: b', xd :: x' =>
      match xd with
      | Some q => if Qltb q m || Qle_bool M q then false else containsN b' x'
      | None => containsN b' x'
      end
  | _, _ => true
  end.
(* 68-76: descending the tree. x[split_dim] < split_val, false for NaN. *)
Fixpoint descend (t : kdtree) (x : list num) : nat :=
  match t with
  | Leaf r _ => r
  | Node _ dim split l r =>
      if match nth dim x None with Some q => Qltb q split | None => false end then descend l x else descend r x
  end.
(* 59-77 *)
Definition domain_ownership (rank : nat) (pb : bounds) (t : kdtree) (x : list num) : nat :=
  if containsN pb x then rank else descend t x.

(* 346-375: fabs(dx[d]) > 0.5*(wd + wd) + 0.1 in some dimension means not adjacent. *)
Fixpoint adjacent_dims (dx : list Q) (pb nb : bounds) : bool :=
  match dx, pb, nb with
  | dxd :: dx', (m, M) :: pb', (m', M') :: nb' =>
      if Qltb ((1#2) * ((M - m) + (M' - m')) + (1#10)) (Qabs dxd) then false else adjacent_dims dx' pb' nb'
  | _, _, _ => true
  end.
Definition adjacent (box : box) (pb nb : bounds) : bool :=
  adjacent_dims (getDisplacement box (center nb) (center pb)) pb nb.
(* find_neighbors: neighbor_ranks and neighbor_nodes after the first computeTopology. *)
Definition neighbors (box : box) (rank : nat) (t : kdtree) : list (nat * bounds) :=
  match process_bounds rank t with
  | None => []
  | Some pb => filter (fun rb => adjacent box pb (snd rb)) (all_processor_nodes rank t)
  end.

(* 35-53: domain_overlaps, the indices of the neighbours whose domain the particle comes closer to than cutoff.
   distance(dx) < cutoff is written with squares. None: bcm, dx have four components. *)
Definition domain_overlaps (box : box) (nbs : list (nat * bounds)) (x : list Q) (cutoff : Q) : option (list nat) :=
  if (4 <? length box)%nat then None else
  Some (map fst (filter (fun inb =>
      let nb := snd (snd inb) in
      let c := center nb in
      let dx := map (fun p => fst p + snd p) (combine (getDisplacement box x c) c) in
      Qltb 0 cutoff && Qltb (distanceSqr nb dx) (Qsqr cutoff))
    (combine (seq 0 (length nbs)) nbs))).

(* ------------------------------------------------------------------ exchange_particles *)

(* neighbor_map.find(rank), built by allocate_arrays (base/topology.cpp 102). *)
Fixpoint index_of (rank : nat) (nbs : list (nat * bounds)) : option nat :=
  match nbs with
  | [] => None
  | (r, _) :: nbs' => if (r =? rank)%nat then Some O else option_map S (index_of rank nbs')
  end.

(* 99-117: where the particle is to be sent: the index of the neighbour, if any. *)
Definition destination (rank : nat) (pb : bounds) (t : kdtree) (nbs : list (nat * bounds)) (p : part) : option nat :=
  if (-1 <? p_type p)%Z && negb (containsN pb (p_x p)) then index_of (domain_ownership rank pb t (p_x p)) nbs else None.
(* send_ids[i] *)
Definition send_ids (rank : nat) (pb : bounds) (t : kdtree) (nbs : list (nat * bounds)) (i : nat) (s : store) : list nat :=
  filter (fun id => match nth_error (st_mem s) id with
                    | Some p => match destination rank pb t nbs p with Some j => (i =? j)%nat | None => false end
                    | None => false end) (seq 0 (st_size s)).

(* The number of particles and the data sent to one neighbour. *)
Definition message := (nat * list word)%type.
(* kdtreetopology.tpp 1-15: the message and the sender afterwards. buf: the old contents of buffer_list[i]. *)
Definition send_particle_data (dw : nat) (ids : list nat) (buf : list word) (s : store) : option (message * store) :=
  let size := length ids in
  if (0 <? size)%nat then
    match pack_buffer dw ids buf true s with
    | None => None
    | Some (buf', s') => Some ((size, firstn (size * dw) buf'), s')
    end
  else Some ((size, []), s).
Fixpoint send_all (dw : nat) (lists : list (list nat)) (bufs : nat -> list word) (i : nat) (s : store)
  : option (list message * store) :=
  match lists with
  | [] => Some ([], s)
  | ids :: lists' =>
      match send_particle_data dw ids (bufs i) s with
      | None => None
      | Some (m, s1) => match send_all dw lists' bufs (S i) s1 with
                        | None => None | Some (ms, s2) => Some (m :: ms, s2) end
      end
  end.
(* kdtreetopology.tpp 37-58. The receive buffer starts with the received words; what is behind them is not read. *)
Definition recv_new_particle_data (dw : nat) (m : message) (s : store) : option store :=
  if (0 <? fst m)%nat then unpack_buffer dw (fst m) (snd m) s else Some s.
Fixpoint recv_all (dw : nat) (ms : list message) (s : store) : option store :=
  match ms with
  | [] => Some s
  | m :: ms' => match recv_new_particle_data dw m s with Some s1 => recv_all dw ms' s1 | None => None end
  end.

(* 83-150: the part of exchange_particles before the receives, on processor rank. The lists are made before anything is
   sent. Result: for each neighbour in order its rank and its message, and the store after the removal. *)
Definition exchange_send (box : box) (t : kdtree) (rank : nat) (dw : nat) (bufs : nat -> list word) (s : store)
  : option (list (nat * message) * store) :=
  match process_bounds rank t with
  | None => None
  | Some pb =>
      let nbs := neighbors box rank t in
      match nbs with
      | [] => Some ([], s)
      | _ :: _ =>
          match send_all dw (map (fun i => send_ids rank pb t nbs i s) (seq 0 (length nbs))) bufs 0 s with
          | None => None
          | Some (ms, s1) => match doParticleRemoval s1 with
                             | None => None
                             | Some s2 => Some (combine (map fst nbs) ms, s2) end
          end
      end
  end.
(* ... and the receives, from the neighbours in order. *)
Definition exchange_recv (dw : nat) (ms : list message) (s : store) : option store := recv_all dw ms s.

(* All processors together. The message that a processor sent to rank k (the messages of one call are matched by
   sender and tag, see Model_Messages). *)
Definition message_to (k : nat) (out : list (nat * message)) : option message :=
  option_map snd (find (fun rm => (fst rm =? k)%nat) out).
Fixpoint sequence {A} (l : list (option A)) : option (list A) :=
  match l with
  | [] => Some []
  | o :: l' => match o, sequence l' with Some a, Some r => Some (a :: r) | _, _ => None end
  end.
(* The messages rank k receives, in the order of its neighbours. *)
Definition incoming (box : box) (t : kdtree) (k : nat) (outs : list (list (nat * message) * store)) : option (list message) :=
  sequence (map (fun n => match nth_error outs n with Some o => message_to k (fst o) | None => None end)
                (map fst (neighbors box k t))).
(* exchange_particles called by all processors; stores: the processors' particles in the order of the ranks, bufs: the
   old contents of their send buffers. *)
Definition exchange_all (box : box) (t : kdtree) (dw : nat) (bufs : nat -> nat -> list word) (stores : list store)
  : option (list store) :=
  match sequence (map (fun ks => exchange_send box t (fst ks) dw (bufs (fst ks)) (snd ks))
                      (combine (seq 0 (length stores)) stores)) with
  | None => None
  | Some outs =>
      sequence (map (fun ko => match incoming box t (fst ko) outs with
                               | Some ms => exchange_recv dw ms (snd (snd ko))
                               | None => None end)
                    (combine (seq 0 (length outs)) outs))
  end.

(* ------------------------------------------------------------------ create_ghost_particles *)

(* topology.cpp 80-86: change_simdata_number, clear_simdata_number *)
Definition set_number (n : Z) (s : store) : store :=
  mkStore (st_dims s) (st_nev s) (st_nes s) (st_nei s) (st_mem s) (st_size s) n (st_map s) (st_rm s) (st_next s) (st_d s)
    (st_remake s) (st_locals s).
(* kdtreetopology.cpp 184-197: the receiving part; s is the ghost list (particle_type 1). *)
Fixpoint recv_ghosts_loop (dw : nat) (ms : list message) (s : store) : option store :=
  match ms with
  | [] => Some s
  | m :: ms' => match recv_new_particle_data dw m s with
                | None => None
                | Some s1 => recv_ghosts_loop dw ms' (set_number (st_number s1 + Z.of_nat (fst m))%Z s1)
                end
  end.
Definition recv_ghosts (dw : nat) (ms : list message) (s : store) : option store :=
  recv_ghosts_loop dw ms (set_number 0 s).
(* simdata.cpp 237-251: removeGhostParticles on the ghost list. *)
Definition removeGhostParticles (s : store) : store :=
  if (st_size s =? 0)%nat then s else
  mkStore (st_dims s) (st_nev s) (st_nes s) (st_nei s)
    (map (set_type (-1)) (firstn (st_size s) (st_mem s)) ++ skipn (st_size s) (st_mem s)) 0 0 (st_map s) (st_rm s)
    (st_next s) (st_d s) (st_remake s) (st_locals s).

(* A second computeTopology (16-31): neighbor_nodes and all_processor_nodes are not cleared; the nodes of the first
   tree are deleted. neighbor_ranks after a second call: *)
Definition neighbor_ranks_again (box : box) (rank : nat) (t1 t2 : kdtree) : list nat :=
  map fst (neighbors box rank t1) ++
  match process_bounds rank t2 with
  | None => []
  | Some pb => map fst (filter (fun rb => adjacent box pb (snd rb))
                 (all_processor_nodes rank t1 ++ all_processor_nodes rank t2))
  end.
