(* When the neighbour lists are rebuilt, and overlap removal. Executable over Q.
   Simplification: square roots are avoided by comparing squares (both sides are non-negative). *)
From Verif Require Import Lib Model_Geometry Model_Cells.
Local Open Scope Q_scope.

(* base/interactionhandler.cpp:379-401  find_max_motion: the squared maximum over the recorded particles of the
   displacement since the last construction; displacements of at least 10 skin depths are skipped.
   [moves] lists (recorded position, current position). (Sample size <= 0: all owned particles.) *)
Definition find_max_motion_sqr (skin_depth : Q) (moves : list (list Q * list Q)) : Q :=
  let max_plausible := Qsqr (10 * skin_depth) in
  fold_left (fun maxD p => let dsqr := dist2 (fst p) (snd p) in
      if Qltb dsqr max_plausible && Qltb maxD dsqr then dsqr else maxD) moves 0.

(* utility/defaultconstants.hpp:66,71 *)
Definition DEFAULT_MV_RATIO_TOLERANCE : Q := 95#100.
Definition DEFAULT_MOTION_FACTOR : Q := 12#10.

(* base/interactionhandler.cpp:336-361  check_needs_remake, the returned decision: time since the last update
   above the maximum, or 2*sqrt(maxDSqr)/skin > tolerance*factor. *)
Definition check_needs_remake (tolerance factor skin_depth max_update_delay since_update : Q)
  (moves : list (list Q * list Q)) : bool :=
  Qltb max_update_delay since_update ||
  Qltb (Qsqr (tolerance * factor * skin_depth)) (4 * find_max_motion_sqr skin_depth moves).

(* The fields of InteractionHandler used in pre_forces (interactionhandler.hpp). *)
Record hstate := mkH { steps_since : Z; delay_steps : Z; requires_remake : bool; last_remake_steps : Z;
                       last_update : Q; update_delay : Q }.

(* base/interactionhandler.cpp:64-110  pre_forces, one processor. Inputs: update_decision_type, whether there are
   particles, simData's remake flag, the current time, whether there are interactions, the result of
   check_needs_remake and the update delay it stores. Result: construct() is called, new state
   (construct() resets the counters, lines 112-137). *)
Definition pre_forces (dtype : Z) (particles sim_needs : bool) (now : Q) (inter : bool) (check : bool) (new_delay : Q)
  (s : hstate) : bool * hstate :=
  let steps := (steps_since s + 1)%Z in
  if negb particles then
    (false, mkH steps (delay_steps s) (requires_remake s) (last_remake_steps s) (last_update s) (update_delay s))
  else
    let run_check := negb (requires_remake s) && (Qltb (update_delay s) (now - last_update s) && inter) in
    let exceeded := requires_remake s || (run_check && check) in
    let delay := if run_check then new_delay else update_delay s in
    let doit := sim_needs || ((dtype =? 0)%Z && exceeded)
                || ((dtype =? 1)%Z && (delay_steps s <=? steps)%Z)
                || ((dtype =? 2)%Z && (delay_steps s <=? steps)%Z) in
    let last := if exceeded && negb (requires_remake s) then steps else last_remake_steps s in
    if doit then
      let last' := if (dtype =? 2)%Z && negb exceeded then (delay_steps s + 1)%Z else last in
      let dsteps := if (dtype =? 2)%Z then last' else delay_steps s in
      (true, mkH 0 dsteps false last' now delay)
    else (false, mkH steps (delay_steps s) exceeded last (last_update s) delay).

(* ------------------------------------------------------------------ removeOverlapping *)
(* One call of the body of removeOverlapping (interactionhandler.cpp:189-203): r2 is the squared distance
   passed by traversePairs (always without periodic wrapping). overlap/min(r1,r2) > factor with
   overlap = r1 + r2 - sqrt(r2): equivalently sqrt(r2) < r1 + r2 - factor*min(r1,r2) (radii positive). *)
Definition overlaps (factor r1 r2 rsqr : Q) : bool :=
  let s := r1 + r2 - factor * Qminb r1 r2 in Qltb 0 s && Qltb rsqr (Qsqr s).

(* A marked particle has type -1 and is moved away (simdata.cpp markForRemoval), so the traversal, which reads
   the arrays as it goes, no longer finds it close to anything: pairs with a marked end are skipped.
   [calls]: the pairs in the order of traversal; [im] the inverse masses; the result is the set of marked ids. *)
Fixpoint overlap_marks (factor : Q) (im : nat -> Q) (calls : list (nat * nat * Q * Q * Q)) (marked : list nat)
  : list nat :=
  match calls with
  | [] => marked
  | (i, j, r1, r2, rsqr) :: calls' =>
      if existsb (Nat.eqb i) marked || existsb (Nat.eqb j) marked then overlap_marks factor im calls' marked
      else if overlaps factor r1 r2 rsqr && Qltb 0 (im i)
      then overlap_marks factor im calls' (j :: marked)
      else overlap_marks factor im calls' marked
  end.
