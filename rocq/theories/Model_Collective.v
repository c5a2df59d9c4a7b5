(* Programs on several processors that talk to each other with MPI's collective calls (parallel/mpi-communication.hpp), and the driver
   (applications/driver.cpp): the command line arguments, the ends of main, the summary of base/datamaster.cpp. Paths under /repo/GFlowSim/src/.
   The semantics is asynchronous: each processor goes on as soon as it has what it needs, in any order; a broadcast does not wait for
   the receivers, a reduction to the root does not wait for anything on the other processors. *)
From Verif Require Import Lib.
Local Open Scope Z_scope.

(* Which function of MPI is called: MPI_Bcast from 0, MPI_Reduce or MPI_Gather to 0, MPI_Allreduce, MPI_Barrier, MPI_Finalize *)
Inductive kind := KBcast | KGather | KAllreduce | KBarrier | KFinalize.
(* A program: the rest of the program gets what MPI delivers. Numbers and characters are Z; buffers are lists. *)
Inductive prog (A : Type) := Ret (a : A) | Call (k : kind) (buf : list Z) (rest : list (list Z) -> prog A).
Arguments Ret {A} a.
Arguments Call {A} k buf rest.
(* One processor: the calls it has entered so far, its program, whether it is inside the last of these calls. *)
Record proc (A : Type) := mkP { p_log : list (kind * list Z); p_prog : prog A; p_in : bool }.
Arguments mkP {A}. Arguments p_log {A}. Arguments p_prog {A}. Arguments p_in {A}.
(* All processors 0 .. P-1 *)
Definition config (A : Type) := nat -> proc A.
Definition start {A} (ps : nat -> prog A) : config A := fun r => mkP [] (ps r) false.
(* the buffer that processor q has handed to its call number i *)
Definition given {A} (c : config A) (i q : nat) : list Z := match nth_error (p_log (c q)) i with Some (_, b) => b | None => [] end.
(* What processor r gets from call number i, and whether it needs processor q to have entered the call for that *)
Definition delivered {A} (P : nat) (c : config A) (k : kind) (i r : nat) : list (list Z) :=
  match k with
  | KBcast => [given c i 0]
  | KGather => if (r =? 0)%nat then map (given c i) (seq 0 P) else []
  | _ => map (given c i) (seq 0 P)
  end.
Definition needs (k : kind) (r q : nat) : bool :=
  match k with KBcast => (q =? 0)%nat | KGather => (r =? 0)%nat | _ => true end.
(* Processor r enters a call, or leaves it. *)
Inductive step {A} (P : nat) (c : config A) : config A -> Prop :=
| Enter r k buf rest c' : (r < P)%nat -> p_in (c r) = false -> p_prog (c r) = Call k buf rest ->
    c' r = mkP (p_log (c r) ++ [(k, buf)]) (Call k buf rest) true -> (forall q, q <> r -> c' q = c q) -> step P c c'
| Leave r k buf rest i c' : (r < P)%nat -> p_in (c r) = true -> p_prog (c r) = Call k buf rest -> length (p_log (c r)) = S i ->
    (forall q, (q < P)%nat -> needs k r q = true -> (i < length (p_log (c q)))%nat) ->
    c' r = mkP (p_log (c r)) (rest (delivered P c k i r)) false -> (forall q, q <> r -> c' q = c q) -> step P c c'.
Inductive steps {A} (P : nat) : nat -> config A -> config A -> Prop :=
| steps_0 c : steps P 0 c c
| steps_S n c c1 c2 : steps P n c c1 -> step P c1 c2 -> steps P (S n) c c2.
(* MPI is used wrongly: two processors are in different functions, or give buffers of different lengths, in the same call. *)
Definition mixed_up {A} (P : nat) (c : config A) : Prop :=
  exists q r i a b, (q < P)%nat /\ (r < P)%nat /\ nth_error (p_log (c q)) i = Some a /\ nth_error (p_log (c r)) i = Some b /\
    (fst a <> fst b \/ length (snd a) <> length (snd b)).
Definition ended {A} (P : nat) (c : config A) : Prop := forall r, (r < P)%nat -> exists a, p_prog (c r) = Ret a.

(* ---------- applications/driver.cpp 56-91: the arguments. argv: the argument strings of this processor, without the final 0;
   garbage: what is in fresh memory. The result: processor_argv (again without the final 0). *)
Fixpoint send_strings {A} (l : list (list Z)) (sent : list (list Z)) (rest : list (list Z) -> prog A) : prog A :=
  match l with
  | [] => rest sent
  | s :: t => Call KBcast s (fun m => send_strings t (sent ++ m) rest)
  end.
Fixpoint recv_strings {A} (garbage : Z) (sizes : list Z) (got : list (list Z)) (rest : list (list Z) -> prog A) : prog A :=
  match sizes with
  | [] => rest got
  | n :: t => Call KBcast (repeat garbage (Z.to_nat n)) (fun m => recv_strings garbage t (got ++ m) rest)
  end.
Definition driver_args {A} (rank : nat) (garbage : Z) (argv : list (list Z)) (rest : list (list Z) -> prog A) : prog A :=
  Call KBcast [Z.of_nat (length argv)] (fun m =>
    let argc := nth 0 (nth 0 m []) 0 in
    if (rank =? 0)%nat then
      Call KBcast (map (fun s => Z.of_nat (length s)) argv) (fun _ => send_strings argv [] (fun out => Call KBarrier [] (fun _ => rest out)))
    else
      Call KBcast (repeat 0 (Z.to_nat argc)) (fun m => recv_strings garbage (nth 0 m []) [] (fun out => Call KBarrier [] (fun _ => rest out)))).

(* ---------- parallel/mpi-communication.hpp 148-154 mpi_and; the value on this processor afterwards *)
Definition mpi_and {A} (v : bool) (rest : bool -> prog A) : prog A :=
  Call KAllreduce [if v then 1 else 0] (fun m => rest (forallb (fun b => negb (nth 0 b 0 =? 0)) m)).
(* base/datamaster.cpp 342-681 writeSummary: can_open: the file can be opened (rank 0 only, 355-360); the calls of mpi_sum0 and mpi_gather
   (386, 427, 434, 487, 499, 546, 591) and those of writeMPIFile (829-...) have 1 number, or ntypes numbers: lens *)
Fixpoint gathers {A} (lens : list nat) (rest : prog A) : prog A :=
  match lens with [] => rest | n :: t => Call KGather (repeat 0 n) (fun _ => gathers t rest) end.
Definition write_data {A} (rank : nat) (can_open : bool) (summary mpi_file : list nat) (rest : prog A) : prog A :=
  if (rank =? 0)%nat && negb can_open then gathers mpi_file rest else gathers summary (gathers mpi_file rest).
(* ---------- applications/driver.cpp 171-177, 298-303, 332-336, 424-495: the ends of main. What goes wrong on this processor: the parser meets an illegal
   token, createSimulation fails, the parser has unused tokens, run() throws. The result: what main returns. Simplifications: the creation of the
   simulation and the run have no calls of their own here, so a processor whose run() fails is one that fails after the last call of run(). *)
Record fate := mkFate { parse_ok : bool; create_ok : bool; check_ok : bool; run_ok : bool }.
Definition finalize {A} (rest : prog A) : prog A := Call KFinalize [] (fun _ => rest).
Definition driver_main (rank : nat) (can_open : bool) (summary mpi_file : list nat) (f : fate) : prog Z :=
  mpi_and (parse_ok f) (fun ok => if negb ok then finalize (Ret 1) else
  mpi_and (ok && create_ok f) (fun ok => if negb ok then finalize (Ret 1) else
  mpi_and (ok && check_ok f) (fun ok => if negb ok then finalize (Ret 1) else
  Call KGather [0] (fun _ =>
  mpi_and (ok && run_ok f) (fun ok =>
    if negb ok then (if (rank =? 0)%nat then write_data rank can_open summary mpi_file (finalize (Ret 1)) else finalize (Ret 1))
    else Call KBarrier [] (fun _ => write_data rank can_open summary mpi_file (Call KBarrier [] (fun _ => finalize (Ret 0))))))))).
