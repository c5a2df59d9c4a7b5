(* GFlow::run, termination, registration of objects (src/gflow.cpp), the recording schedule (src/base/dataobject.cpp,
   src/base/datamaster.cpp); paths under /repo/GFlowSim/src. Times are exact rationals. *)
From Coq Require Import QArith List Bool Arith Lia.
Import ListNotations.
Local Open Scope Q_scope.

(* ------------------------------------------------------------------ times and flags of one processor (gflow.hpp 360-453) *)
Record gf := mkG { g_req : Q; g_treq : Q; g_el : Q; g_tot : Q; g_iter : nat; g_running : bool; g_term : bool; g_tterm : Q }.
(* gflow.hpp 360-453: initial values *)
Definition new_gf : gf := mkG 0 0 0 0 0 false false (-1).
(* gflow.cpp 757-767 terminate; np: the number of processors *)
Definition terminate (np : nat) (s : gf) : gf :=
  mkG (g_req s) (g_treq s) (g_el s) (g_tot s) (g_iter s) (if (np =? 1)%nat then false else g_running s) true (if g_term s then g_tterm s else g_el s).
(* some object calls terminate() (integrators/relax-integrator.tpp 27, registerException 769-772) *)
Definition maybe (np : nat) (c : bool) (s : gf) : gf := if c then terminate np s else s.
(* gflow.cpp 750-755 syncRunning with parallel/mpi-communication.hpp 157-163 (the flags of all processors are ORed) *)
Definition sync (ss : list gf) : list gf :=
  let t := existsb g_term ss in
  map (fun s => mkG (g_req s) (g_treq s) (g_el s) (g_tot s) (g_iter s) (if t then false else g_running s) t (g_tterm s)) ss.
(* gflow.cpp 239 and 249-259: the request is checked, then the counters advance by the time step. c: an object called terminate()
   between the handler's pre_forces and the end of the step (the elapsed time is the same before and after line 239, so the order
   does not matter). The loss-of-precision test total - dt == total is made in exact arithmetic. *)
Definition advance (np : nat) (c : bool) (dt : Q) (s : gf) : gf :=
  let s1 := maybe np (Qle_bool (g_req s) (g_el s)) s in
  let s2 := maybe np c s1 in
  let s3 := mkG (g_req s2) (g_treq s2) (g_el s2 + dt) (g_tot s2 + dt) (S (g_iter s2)) (g_running s2) (g_term s2) (g_tterm s2) in
  maybe np (Qeq_bool (g_tot s3 - dt) (g_tot s3)) s3.
(* What happens in a step: the time step (the same on all processors), for each processor whether terminate() is called before the
   handler (true if so), whether the handler is remade (on all processors), and whether terminate() is called after that. *)
Record ev := mkEv { e_dt : Q; e_before : list bool; e_remake : bool; e_after : list bool }.
(* gflow.cpp 159-275: one pass of the loop on all processors; base/simdata.cpp 253-263: a remake synchronises the flags. *)
Definition step_all (e : ev) (ss : list gf) : list gf :=
  let np := length ss in
  let s1 := map (fun p => maybe np (fst p) (snd p)) (combine (e_before e) ss) in
  let s2 := if e_remake e then sync s1 else s1 in
  map (fun p => advance np (fst p) (e_dt e) (snd p)) (combine (e_after e) s2).
(* gflow.cpp 157 *)
Definition goes_on (s : gf) : bool := g_running s && negb (Qle_bool (g_req s) 0).
(* gflow.cpp 157-275: the loop, from step k on. None: not finished within the fuel, or the processors disagree about going on, so
   that some wait forever for the others. *)
Fixpoint loop (fuel : nat) (evs : nat -> ev) (k : nat) (ss : list gf) : option (list gf) :=
  match fuel with
  | O => None
  | S f => if forallb goes_on ss then loop f evs (S k) (step_all (evs k) ss)
           else if existsb goes_on ss then None else Some ss
  end.
(* gflow.cpp 97-102 *)
Definition request (rt : Q) (s : gf) : gf :=
  let r := if Qle_bool rt 0 then g_req s else rt in
  mkG r (g_treq s + r) (g_el s) (g_tot s) (g_iter s) (g_running s) (g_term s) (g_tterm s).
(* 104-109: no particles *)
Definition run_empty (s : gf) : gf := mkG (g_req s) (g_treq s) (g_el s + g_req s) (g_tot s + g_req s) (g_iter s) (g_running s) (g_term s) (g_tterm s).
(* 131-136 *)
Definition start (s : gf) : gf := mkG (g_req s) (g_treq s) 0 (g_tot s) 0 true false (g_tterm s).
(* 283 *)
Definition finish (s : gf) : gf := mkG 0 (g_treq s) (g_el s) (g_tot s) (g_iter s) (g_running s) (g_term s) (g_tterm s).
(* 97-304 run(rt) on all processors; ns: the number of particles of each. A processor without particles returns at once: if others have some,
   they wait forever for it (in the synchronisations and in the barrier at the end). The calls of pre_integrate and post_integrate
   are not modelled. *)
Definition run (fuel : nat) (evs : nat -> ev) (ns : list nat) (rt : Q) (ss : list gf) : option (list gf) :=
  let s1 := map (request rt) ss in
  if forallb (fun n => n =? 0)%nat ns then Some (map run_empty s1)
  else if existsb (fun n => n =? 0)%nat ns then None
  else option_map (map finish) (loop fuel evs 0 (map start s1)).
(* 542-545 requestTime *)
Definition requestTime (t : Q) (s : gf) : gf :=
  mkG (if Qle_bool 0 t then t else 0) (g_treq s) (g_el s) (g_tot s) (g_iter s) (g_running s) (g_term s) (g_tterm s).
(* 699-705 resetAllTimes *)
Definition resetAllTimes (s : gf) : gf := mkG 0 0 0 0 0 (g_running s) (g_term s) (g_tterm s).

(* ------------------------------------------------------------------ registration (467-489, 680-697) *)
(* Objects are numbers; a null pointer is None. *)
Record reg := mkReg { r_inter : list nat; r_bonded : list nat; r_bodies : list nat; r_integ : list nat; r_mods : list nat; r_data : list (option nat) }.
Definition new_reg : reg := mkReg [] [] [] [] [] [].
(* utility/utility.hpp 172-175 contains *)
Definition contains (l : list nat) (x : nat) : bool := existsb (Nat.eqb x) l.
(* 467-470 addInteraction, 472-475 addBonded, 477-480 addBody *)
Definition add_once (o : option nat) (l : list nat) : list nat :=
  match o with Some x => if contains l x then l else l ++ [x] | None => l end.
(* 482-485 addIntegrator, 689-696 addModifier *)
Definition add_any (o : option nat) (l : list nat) : list nat := match o with Some x => l ++ [x] | None => l end.
Inductive reg_op := AddInteraction (o : option nat) | AddBonded (o : option nat) | AddBody (o : option nat) | AddIntegrator (o : option nat)
  | AddModifier (o : option nat) | AddDataObject (o : option nat) | DataMasterAdd (o : option nat) | EndOfForces (removed : nat -> bool).
(* 784-796 handleModifiers: a std::list; the iterators of those with the remove flag are collected, then erased. An iterator is
   the number of a node. *)
Definition nodes (l : list nat) : list (nat * nat) := combine (seq 0 (length l)) l.
Definition to_remove (removed : nat -> bool) (l : list (nat * nat)) : list nat :=
  fold_left (fun acc it => if removed (snd it) then acc ++ [fst it] else acc) l [].
Fixpoint erase (it : nat) (l : list (nat * nat)) : list (nat * nat) :=
  match l with [] => [] | (k, x) :: l' => if (k =? it)%nat then l' else (k, x) :: erase it l' end.
Definition handle_modifiers (removed : nat -> bool) (l : list nat) : list nat :=
  if (length l =? 0)%nat then l else map snd (fold_left (fun acc it => erase it acc) (to_remove removed (nodes l)) (nodes l)).
(* 680-687 addDataObject; base/datamaster.cpp 21-23 *)
Definition reg_step (op : reg_op) (r : reg) : reg :=
  match op with
  | AddInteraction o => mkReg (add_once o (r_inter r)) (r_bonded r) (r_bodies r) (r_integ r) (r_mods r) (r_data r)
  | AddBonded o => mkReg (r_inter r) (add_once o (r_bonded r)) (r_bodies r) (r_integ r) (r_mods r) (r_data r)
  | AddBody o => mkReg (r_inter r) (r_bonded r) (add_once o (r_bodies r)) (r_integ r) (r_mods r) (r_data r)
  | AddIntegrator o => mkReg (r_inter r) (r_bonded r) (r_bodies r) (add_any o (r_integ r)) (r_mods r) (r_data r)
  | AddModifier o => mkReg (r_inter r) (r_bonded r) (r_bodies r) (r_integ r) (add_any o (r_mods r)) (r_data r)
  | AddDataObject o => mkReg (r_inter r) (r_bonded r) (r_bodies r) (r_integ r) (r_mods r) (match o with Some x => r_data r ++ [Some x] | None => r_data r end)
  | DataMasterAdd o => mkReg (r_inter r) (r_bonded r) (r_bodies r) (r_integ r) (r_mods r) (r_data r ++ [o])
  | EndOfForces f => mkReg (r_inter r) (r_bonded r) (r_bodies r) (r_integ r) (handle_modifiers f (r_mods r)) (r_data r)
  end.
Definition reg_run (ops : list reg_op) (r : reg) : reg := fold_left (fun r op => reg_step op r) ops r.

(* ------------------------------------------------------------------ the recording schedule *)
Inductive mode := IDLE | INIT | SIM.
Record dob := mkDob { d_delay : Q; d_last : Q; d_setup : bool }.
(* base/dataobject.cpp 5-11: the constructors *)
Definition new_dob (setup : bool) : dob := mkDob (1 # 20) (-10) setup.
(* base/dataobject.cpp 13-15 pre_integrate *)
Definition d_pre_integrate (d : dob) : dob := mkDob (d_delay d) (-10) (d_setup d).
(* base/dataobject.cpp 29-31 setFPS; None: infinite *)
Definition setFPS (fps : Q) (d : dob) : option dob := if Qeq_bool fps 0 then None else Some (mkDob (1 / fps) (d_last d) (d_setup d)).
Definition is_sim (m : mode) : bool := match m with SIM => true | _ => false end.
(* base/dataobject.cpp 71-81 _check *)
Definition check (m : mode) (time : Q) (d : dob) : bool * dob :=
  if negb (d_setup d) && negb (is_sim m) then (false, d) else
  if negb (Qle_bool (d_delay d) (time - d_last d)) then (false, d) else (true, mkDob (d_delay d) time (d_setup d)).
(* base/datamaster.cpp 113-124 post_step (and 75-111): objects are called if the elapsed time is at least startRecTime. The
   data objects begin their hook with _check (for example dataobjects/graphobjects/kineticenergydata.cpp post_step). *)
Definition record_step (m : mode) (startRec time : Q) (d : dob) : bool * dob :=
  if Qle_bool startRec time then check m time d else (false, d).
(* A run: pre_integrate, then one call per step at the given elapsed times; the times of the recordings. *)
Fixpoint record_run (m : mode) (startRec : Q) (times : list Q) (d : dob) : list Q * dob :=
  match times with
  | [] => ([], d)
  | t :: ts => let (b, d1) := record_step m startRec t d in
               let (l, d2) := record_run m startRec ts d1 in ((if b then t :: l else l), d2)
  end.
Definition record (m : mode) (startRec : Q) (times : list Q) (d : dob) : list Q * dob := record_run m startRec times (d_pre_integrate d).
(* base/datamaster.cpp 126-135: checkpoints. last_checkpoint_time is not reset when a run starts. *)
Record ckpt := mkCk { c_delay : Q; c_last : Q; c_count : nat }.
Definition checkpoint (time : Q) (c : ckpt) : bool * ckpt :=
  if Qle_bool (c_delay c) (time - c_last c) then (true, mkCk (c_delay c) time (S (c_count c))) else (false, c).
Fixpoint checkpoints (times : list Q) (c : ckpt) : list Q * ckpt :=
  match times with
  | [] => ([], c)
  | t :: ts => let (b, c1) := checkpoint t c in let (l, c2) := checkpoints ts c1 in ((if b then t :: l else l), c2)
  end.
