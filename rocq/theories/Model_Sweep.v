(* From the neighbour search to the forces: construct() hands the pairs it finds to the interactions, and interact() applies the
   forces (src/base/interactionhandler.cpp, forcemaster.cpp, interaction.cpp); paths under /repo/GFlowSim/src. One processor, no
   ghosts. This file joins the models of the search (Model_Cells, rational positions), of the table of interactions and of the
   containers of pairs (Model_Handlers) and of the forces (Model_Forces, real numbers). *)
From Coq Require Import Reals Qreals.
From Verif Require Import Lib Model_Geometry Model_Handlers Model_Cells.
From Verif Require Model_Forces.
Local Open Scope list_scope.

(* An interaction object: which force, and Interaction::cutoff. *)
Record inter := mkI { i_kind : Model_Forces.kind; i_cut : Q }.

(* base/interactionhandler.cpp:406-422 set_up_grids: cutoff_grid; 34 max_cutoffs; domains/domain.cpp:240-246 typeInteracts. The
   skin depth, the largest small radius, the cells and the widths are those of Model_Cells. *)
Definition handler_env (its : nat -> inter) (fm : force_master) (sk mss : Q) (gs : list gaxis) (wds : list Q) : env :=
  mkEnv (fun t1 t2 => match getInteraction t1 t2 fm with Some i => i_cut (its i) | None => 0%Q end)
        (fun t => match getMaxCutoff (Z.to_nat t) fm with Some v => v | None => 1%Q end)
        (fun t => match typeInteracts t fm with Says b => b | _ => false end)
        sk mss gs wds.

(* base/interactionhandler.cpp:461-466 pair_interaction, called for each pair of traversePairs (143-149): the calls of addPair of
   the interaction it. The types are read at the ids. *)
Definition pair_calls (fm : force_master) (ps : list particle) (it : nat) (vs : list visit) : list call :=
  flat_map (fun v => let '(i, j, w) := v in
    match nth_error ps i, nth_error ps j with
    | Some p, Some q => match getInteraction (ptype p) (ptype q) fm with
                        | Some k => if (k =? it)%nat then [AddPair (Z.of_nat i) (Z.of_nat j) (Z.to_nat w)] else []
                        | None => [] end
    | _, _ => [] end) vs.
(* base/interactionhandler.cpp:123 forceMaster->clear, 143-149, 154 forceMaster->close: what happens to the list of pairs of the
   interaction it (VerletListPairs, which interaction-choice.cpp makes); old: its pairs before. None: construct is undefined. *)
Definition construct_lists (fm : force_master) (e : env) (ps : list particle) (it : nat) (old : pair_lists) : option pair_lists :=
  match traversePairs e ps with
  | Some vs => calls pairs_call (Clear :: pair_calls fm ps it vs ++ [Close]) old
  | None => None
  end.

(* generic-handlers.hpp 335-365: what is read at a pair. The particles have moved to xs since the search; b is the box, and the
   other arrays are arbitrary. *)
Definition force_env (b : box) (ps : list particle) (xs : list (list Q)) (v : nat -> nat -> R) (im om : nat -> R) (p w : bool) : Model_Forces.env :=
  Model_Forces.mkEnv (length b) (fun i d => Q2R (nth d (nth i xs []) 0%Q)) v im
    (fun i => match nth_error ps i with Some q => Q2R (prd q) | None => 0%R end) om
    (fun d => match nth_error b d with Some a => bc_eqb (bc a) WRAP | None => false end)
    (fun d => match nth_error b d with Some a => Q2R (wd a) | None => 0%R end) p w.

(* One pair of the list of the interaction; None: not a number. *)
Definition act_pair (x : inter) (fe : Model_Forces.env) (w : bool) (i j : Z) (st : option Model_Forces.fstate) : option Model_Forces.fstate :=
  match st with
  | Some s => Model_Forces.do_pair (i_kind x) (Q2R (i_cut x)) fe w (Z.to_nat i) (Z.to_nat j) s
  | None => None
  end.
(* generic-handlers.hpp 295-305 interact with interaction.cpp 7-11: virial and potential of the interaction start at 0. *)
Definition interact_one (x : inter) (fe : Model_Forces.env) (lists : pair_lists) (s : Model_Forces.fstate) : option Model_Forces.fstate :=
  match interact pairs_visit (act_pair x fe) lists (Some (Model_Forces.mkF (Model_Forces.F s) (Model_Forces.Tq s) 0 0)) with
  | Some r => r
  | None => None
  end.
(* base/forcemaster.cpp:39-48 interact: all interactions in the order of the list; with the potential each of them reports
   afterwards (interaction.cpp 25-27). *)
Fixpoint sweep (its : nat -> inter) (fe : Model_Forces.env) (lists : nat -> pair_lists) (l : list nat) (s : Model_Forces.fstate)
  : option (Model_Forces.fstate * list R) :=
  match l with
  | [] => Some (s, [])
  | it :: l' =>
      match interact_one (its it) fe (lists it) s with
      | Some s1 => match sweep its fe lists l' s1 with
                   | Some (s2, us) => Some (s2, Model_Forces.pot s1 :: us)
                   | None => None end
      | None => None
      end
  end.
(* gflow.cpp clearForces (172) *)
Definition cleared : Model_Forces.fstate := Model_Forces.mkF (fun _ _ => 0%R) (fun _ => 0%R) 0 0.
(* base/forcemaster.cpp:82-88 getTotalPotentialEnergy *)
Definition total_potential (us : list R) : R := fold_left Rplus us 0%R.
