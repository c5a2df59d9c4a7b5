(* Specification vocabulary for the decomposition (C36-C39, C52, C53). *)
From Coq Require Import String.
From Verif Require Import Lib Model_Geometry Model_Store Model_Buffer Model_Topology Model_Messages Model_Ghosts Spec_Geometry Spec_Store.
From Coq Require Import Sorting.Sorted.
Local Open Scope list_scope.

(* The simulation box as bounds; the box is not empty. *)
Definition bounds_of (b : box) : bounds := map (fun a => (lo a, hi a)) b.
Definition nonempty (b : bounds) : Prop := (1 <= length b)%nat /\ forall m M, In (m, M) b -> m < M.
(* x is in the half-open box. *)
Definition inside (b : bounds) (x : list Q) : Prop := Forall2 (fun mM xd => fst mM <= xd /\ xd < snd mM) b x.
(* a is part of b *)
Definition part_of (a b : bounds) : Prop :=
  Forall2 (fun aM bM => fst bM <= fst aM /\ snd aM <= snd bM) a b.
Definition inside_closed (b : bounds) (x : list Q) : Prop := Forall2 (fun mM xd => fst mM <= xd <= snd mM) b x.
(* Some periodic image of x is closer than r to the (closed) region b. *)
Definition within (bx : box) (b : bounds) (x : list Q) (r : Q) : Prop :=
  0 < r /\ exists ks z, length ks = length bx /\ inside_closed b z /\ imageSqr bx ks x z < Qsqr r.

(* All entries of a store, also those marked for removal. *)
Definition stored (s : store) : list part := firstn (st_size s) (st_mem s).
(* The ghost g carries the data of p that ghost updates transport: the position relative to the centre c, the velocity if
   velocities are sent, the angular velocity if angular velocities are sent. *)
Definition is_image (bx : box) (l : ghost_layout) (c : list Q) (p g : part) : Prop :=
  p_x g = relative_position bx (p_x p) c /\ (send_v l = true -> p_v g = p_v p) /\ (send_om l = true -> get_om l g = get_om l p).
(* A local computation that changes the data of every own particle (and no numbers of entries). *)
Definition keeps_shape (f : part -> part) : Prop := forall p, length (p_x (f p)) = length (p_x p) /\
  length (p_v (f p)) = length (p_v p) /\ length (p_escals (f p)) = length (p_escals p).
Definition moved (f : part -> part) (s : store) : store :=
  mkStore (st_dims s) (st_nev s) (st_nes s) (st_nei s) (map f (st_mem s)) (st_size s) (st_number s) (st_map s) (st_rm s)
    (st_next s) (st_d s) (st_remake s) (st_locals s).
(* f k is what happens to the particles of processor k. *)
Definition move_round (f : nat -> part -> part) : round gproc :=
  local_round (fun k g => Some (mkG (moved (f k) (g_own g)) (g_gho g) (g_send g) (g_sizes g) (g_at g))).

(* The numbers of a store agree with its contents: number() is the number of particles, and the list of local ids to be
   removed is exactly the list of the entries that are not alive. *)
Definition well_kept (s : store) : Prop :=
  (st_size s <= st_cap s)%nat /\ st_number s = Z.of_nat (length (particles s)) /\ StronglySorted lt (st_rm s) /\
  forall i, In i (st_rm s) <-> exists p, at_ s i p /\ ~ alive p.

(* Neighbour ranks of processor k. *)
Definition neighbor_ranks (bx : box) (k : nat) (t : kdtree) : list nat := map fst (neighbors bx k t).
(* The processor that has to hold the particle p of processor k after an exchange: the owner reported for its position,
   if that is a neighbour of k. *)
Definition new_home (bx : box) (t : kdtree) (k : nat) (p : part) : nat :=
  match process_bounds k t with
  | None => k
  | Some pb => let o := domain_ownership k pb t (p_x p) in
               if existsb (Nat.eqb o) (neighbor_ranks bx k t) then o else k
  end.

(* Every message that was sent has been received, and nothing else was. *)
Definition all_received {M L} (ps : list (proc M L)) : Prop := forall j k a b tag, nth_error ps j = Some a -> nth_error ps k = Some b ->
  received j tag (pr_recv b) = length (msgs k tag (pr_sent a)).
(* Started in ss, the rounds come to an end in ss' whatever the schedule: no execution is longer than some N, an execution
   of that length has all processors done and holding ss' and all messages received, a shorter one can go on. *)
Definition always_ends_in {T} (eager : nat -> nat -> nat -> nat -> bool) (rounds : list (round T)) (ss ss' : list T) : Prop :=
  exists N, forall v ps, execute eager pnext v (boot rounds ss) = Some ps ->
    (length v <= N)%nat /\
    (length v = N -> map pr_state ps = map (PStart []) ss' /\ all_received ps) /\
    ((length v < N)%nat -> exists k ps', pstep eager pnext k ps = Some ps').

(* What a sequence of moves makes of a particle, of a store. *)
Definition all_moves (fs : list (nat -> part -> part)) (n : nat) (p : part) : part := fold_left (fun p f => f n p) fs p.
Definition all_moved (fs : list (nat -> part -> part)) (n : nat) (s : store) : store := fold_left (fun s f => moved (f n) s) fs s.
