(* Message passing between the processors: the order of the MPI calls in src/parallel/kdtreetopology.{cpp,tpp} and
   src/parallel/mpi-communication.hpp (paths under /repo/GFlowSim/src), executed under an arbitrary schedule.

   What is assumed of MPI: messages from one processor to another with the same tag are received in the order in which
   they were sent; a receive returns once a matching message was sent; a wait returns at the latest when the messages
   waited for have been received (it may return earlier for messages MPI buffers, which ones is left open: [eager]). *)
From Coq Require Import String.
From Verif Require Import Lib Model_Geometry Model_Store Model_Buffer Model_Topology.
Local Open Scope list_scope.

Fixpoint update {A} (k : nat) (a : A) (l : list A) : list A :=
  match l, k with
  | [], _ => []
  | _ :: l', O => a :: l'
  | b :: l', S k' => b :: update k' a l'
  end.

(* What a processor does next. *)
Inductive act (M L : Type) :=
| ASend (dst tag : nat) (m : M) (l : L)      (* MPI_Isend *)
| ARecv (src tag : nat) (f : M -> L)         (* MPI_Recv, or MPI_Wait for an MPI_Irecv posted before *)
| AWait (tag : nat) (l : L)                  (* MPI_Waitall for the sends with this tag *)
| ATau (l : L)                               (* local computation *)
| ADone.
Arguments ASend {M L}. Arguments ARecv {M L}. Arguments AWait {M L}. Arguments ATau {M L}. Arguments ADone {M L}.

(* A processor: its local state, the messages it sent so far (destination, tag, contents) and what it received so far
   (source, tag). *)
Record proc (M L : Type) := mkProc { pr_state : L; pr_sent : list (nat * nat * M); pr_recv : list (nat * nat) }.
Arguments mkProc {M L}. Arguments pr_state {M L}. Arguments pr_sent {M L}. Arguments pr_recv {M L}.

(* The messages to dst with this tag, in the order in which they were sent; how many were received from src. *)
Definition msgs {M} (dst tag : nat) (sent : list (nat * nat * M)) : list M :=
  map snd (filter (fun e => (fst (fst e) =? dst)%nat && (snd (fst e) =? tag)%nat) sent).
Definition received (src tag : nat) (recv : list (nat * nat)) : nat :=
  length (filter (fun e => (fst e =? src)%nat && (snd e =? tag)%nat) recv).

Section STEP.
Context {M L : Type}.
(* eager src dst tag i: MPI buffers the i-th message from src to dst with this tag. *)
Variable eager : nat -> nat -> nat -> nat -> bool.
Variable next : nat -> L -> act M L.

Definition wait_over (k tag : nat) (me : proc M L) (ps : list (proc M L)) : bool :=
  forallb (fun d => match nth_error ps d with
                    | Some them => forallb (fun i => eager k d tag i || (i <? received k tag (pr_recv them))%nat)
                                     (seq 0 (length (msgs d tag (pr_sent me))))
                    | None => true
                    end) (seq 0 (length ps)).

(* One step of processor k; None: it is blocked or done. *)
Definition pstep (k : nat) (ps : list (proc M L)) : option (list (proc M L)) :=
  match nth_error ps k with
  | None => None
  | Some me =>
      match next k (pr_state me) with
      | ADone => None
      | ATau l => Some (update k (mkProc l (pr_sent me) (pr_recv me)) ps)
      | ASend d t m l => if (d <? length ps)%nat
                         then Some (update k (mkProc l (pr_sent me ++ [(d, t, m)]) (pr_recv me)) ps) else None
      | ARecv s t f =>
          match nth_error ps s with
          | None => None
          | Some them =>
              match nth_error (msgs k t (pr_sent them)) (received s t (pr_recv me)) with
              | None => None
              | Some m => Some (update k (mkProc (f m) (pr_sent me) (pr_recv me ++ [(s, t)])) ps)
              end
          end
      | AWait t l => if wait_over k t me ps then Some (update k (mkProc l (pr_sent me) (pr_recv me)) ps) else None
      end
  end.

(* A schedule: which processor moves next. *)
Fixpoint execute (sched : list nat) (ps : list (proc M L)) : option (list (proc M L)) :=
  match sched with
  | [] => Some ps
  | k :: sched' => match pstep k ps with Some ps' => execute sched' ps' | None => None end
  end.
End STEP.

(* ------------------------------------------------------------------ the communication rounds *)

Inductive payload := MSize (n : nat) | MData (ws : list word).
(* base/topology.hpp 205-208 *)
Definition send_size_tag : nat := 0.
Definition send_particle_tag : nat := 1.
Definition send_ghost_tag : nat := 2.
Definition update_ghost_tag : nat := 3.

Section ROUNDS.
Context {T : Type}.   (* what a processor holds *)

(* One call of exchange_particles, create_ghost_particles or send_ghost_updates + recv_ghost_updates. *)
Record round := mkRound {
  r_tag : nat;
  r_announce : bool;                                                (* the number of particles is sent first *)
  r_nbs : nat -> list nat;                                          (* neighbor_ranks *)
  r_local : nat -> T -> option (list (nat * message) * T);          (* everything before the receives *)
  r_expect : nat -> T -> nat -> nat;                                (* recv_ghost_sizes, if not announced *)
  r_accept : nat -> nat -> message -> T -> option T                 (* unpacking what came from a neighbour *)
}.

Inductive pstate :=
| PStart (rounds : list round) (s : T)
| PSend (r : round) (todo : list (nat * message)) (rounds : list round) (s : T)
| PSendData (r : round) (dst : nat) (m : message) (todo : list (nat * message)) (rounds : list round) (s : T)
| PRecv (r : round) (todo : list nat) (rounds : list round) (s : T)
| PRecvData (r : round) (src n : nat) (todo : list nat) (rounds : list round) (s : T)
| PFail.                                                            (* undefined behaviour in a local computation *)

Definition accepted (r : round) (k src : nat) (m : message) (todo : list nat) (rounds : list round) (s : T) : pstate :=
  match r_accept r k src m s with Some s' => PRecv r todo rounds s' | None => PFail end.

(* The calls of one processor: kdtreetopology.cpp 120-140, 173-195, 206-222, 230-286; kdtreetopology.tpp 1-58. *)
Definition pnext (k : nat) (st : pstate) : act payload pstate :=
  match st with
  | PFail => ADone
  | PStart [] s => ADone
  | PStart (r :: rounds) s =>
      match r_local r k s with
      | Some (out, s') => ATau (PSend r out rounds s')
      | None => ATau PFail
      end
  | PSend r [] rounds s => ATau (PRecv r (r_nbs r k) rounds s)
  | PSend r ((d, m) :: todo) rounds s =>
      if r_announce r
      then ASend d send_size_tag (MSize (fst m)) (PSendData r d m todo rounds s)
      else ATau (PSendData r d m todo rounds s)
  | PSendData r d m todo rounds s =>
      if (0 <? fst m)%nat then ASend d (r_tag r) (MData (snd m)) (PSend r todo rounds s)
      else ATau (PSend r todo rounds s)
  | PRecv r [] rounds s => AWait (r_tag r) (PStart rounds s)
  | PRecv r (n :: todo) rounds s =>
      if r_announce r
      then ARecv n send_size_tag (fun p => match p with MSize size => PRecvData r n size todo rounds s | MData _ => PFail end)
      else ATau (PRecvData r n (r_expect r k s n) todo rounds s)
  | PRecvData r n size todo rounds s =>
      if (0 <? size)%nat
      then ARecv n (r_tag r) (fun p => match p with MData ws => accepted r k n (size, ws) todo rounds s | MSize _ => PFail end)
      else ATau (accepted r k n (0%nat, []) todo rounds s)
  end.

(* All processors at the start. *)
Definition boot (rounds : list round) (ss : list T) : list (proc payload pstate) :=
  map (fun s => mkProc (PStart rounds s) [] []) ss.

(* The same rounds without message passing: every processor gets the messages addressed to it. *)
Fixpoint accept_all (r : round) (k : nat) (ms : list (nat * message)) (s : T) : option T :=
  match ms with
  | [] => Some s
  | (n, m) :: ms' => match r_accept r k n m s with Some s1 => accept_all r k ms' s1 | None => None end
  end.
Definition delivered (r : round) (k : nat) (outs : list (list (nat * message) * T)) : option (list (nat * message)) :=
  sequence (map (fun n => match nth_error outs n with
                          | Some o => option_map (pair n) (message_to k (fst o))
                          | None => None end) (r_nbs r k)).
Definition round_all (r : round) (ss : list T) : option (list T) :=
  match sequence (map (fun ks => r_local r (fst ks) (snd ks)) (combine (seq 0 (length ss)) ss)) with
  | None => None
  | Some outs => sequence (map (fun ko => match delivered r (fst ko) outs with
                                          | Some ms => accept_all r (fst ko) ms (snd (snd ko))
                                          | None => None end) (combine (seq 0 (length outs)) outs))
  end.
Fixpoint rounds_all (rounds : list round) (ss : list T) : option (list T) :=
  match rounds with
  | [] => Some ss
  | r :: rounds' => match round_all r ss with Some ss' => rounds_all rounds' ss' | None => None end
  end.
End ROUNDS.
Arguments round T : clear implicits.
Arguments pstate T : clear implicits.

(* exchange_particles as a round. A message without particles is not unpacked (kdtreetopology.tpp 46). *)
Definition exchange_round (box : box) (t : kdtree) (dw : nat) (bufs : nat -> nat -> list word) : round store :=
  mkRound send_particle_tag true (fun k => map fst (neighbors box k t))
    (fun k s => exchange_send box t k dw (bufs k) s)
    (fun _ _ _ => 0%nat)
    (fun _ _ m s => recv_new_particle_data dw m s).

(* mpi-communication.hpp 193-224: mpi_reduce0_position_data. MPI_Send is a send followed by a wait. *)
Inductive gstate :=
| GSize (i : nat) (sizes : list nat) (data : list Q)      (* rank 0: the next size to receive is that of rank i *)
| GData (i : nat) (sizes : list nat) (data : list Q)      (* rank 0: the next data *)
| GSendSize (data : list Q) | GWaitSize (data : list Q) | GSendData (data : list Q) | GWaitData (data : list Q)
| GDone (data : list Q) | GFail.
Inductive gpayload := GN (n : nat) | GD (xs : list Q).
Definition gnext (numProc k : nat) (st : gstate) : act gpayload gstate :=
  match st with
  | GSize i sizes data =>
      if (i <? numProc)%nat then ARecv i 0 (fun p => match p with GN n => GSize (S i) (sizes ++ [n]) data | GD _ => GFail end)
      else ATau (GData 1 sizes data)
  | GData i sizes data =>
      match sizes with
      | [] => ATau (GDone data)
      | n :: sizes' =>
          if (0 <? n)%nat
          then ARecv i 0 (fun p => match p with
                                   | GD xs => if (length xs =? n)%nat then GData (S i) sizes' (data ++ xs) else GFail
                                   | GN _ => GFail end)
          else ATau (GData (S i) sizes' data)
      end
  | GSendSize data => ASend 0 0 (GN (length data)) (GWaitSize data)
  | GWaitSize data => AWait 0 (GSendData data)
  | GSendData data => if (0 <? length data)%nat then ASend 0 0 (GD data) (GWaitData data) else ATau (GDone data)
  | GWaitData data => AWait 0 (GDone data)
  | GDone _ | GFail => ADone
  end.
Definition gboot (datas : list (list Q)) : list (proc gpayload gstate) :=
  map (fun kd => mkProc (if (fst kd =? 0)%nat then GSize 1 [] (snd kd) else GSendSize (snd kd)) [] [])
      (combine (seq 0 (length datas)) datas).
