(* Several runs with the same data object: what pre_integrate of the classes in dataobjects/ resets. Paths under /repo/GFlowSim/src. *)
From Coq Require Import QArith List Bool.
From Verif Require Import Model_Run.
Import ListNotations.
Local Open Scope Q_scope.

(* The three ways of pre_integrate at the start of a run:
   Resets: the data is cleared and the time of the last recording is reset (dataobjects/dataobjecttypes/graphobject.cpp 12-17,
     multigraphobject.cpp 11-16, and the classes that do not override or call these: group-correlation.cpp 13-20,
     twopolymerbinforce.cpp 27-32, twowallbinforce.cpp 17-22);
   ClearsOnly: the data is cleared, DataObject::pre_integrate is not called (graphobjects/persistence-length.cpp 9-14,
     twogroupstatistics.cpp 9-11, dataobjecttypes/volumeplotobject2d.cpp 17-45);
   KeepsAll: neither (graphobjects/pressuredata.cpp 10-14, total-energy-data.cpp 10-12, positiondata.cpp 16-26). *)
Inductive way := Resets | ClearsOnly | KeepsAll.
(* a data object with the times of the recordings it holds *)
Record rec := mkRec { r_dob : dob; r_data : list Q }.
Definition start (k : way) (r : rec) : rec :=
  match k with
  | Resets => mkRec (d_pre_integrate (r_dob r)) []
  | ClearsOnly => mkRec (r_dob r) []
  | KeepsAll => r
  end.
(* gflow.cpp 133: the elapsed time of each run starts at 0; times: the elapsed times of its steps *)
Definition one_run (k : way) (startRec : Q) (times : list Q) (r : rec) : rec :=
  let r1 := start k r in
  let (l, d) := record_run SIM startRec times (r_dob r1) in
  mkRec d (r_data r1 ++ l).
Definition runs (k : way) (startRec : Q) (rs : list (list Q)) (r : rec) : rec := fold_left (fun r ts => one_run k startRec ts r) rs r.
(* a new object: base/dataobject.cpp 5-11 *)
Definition new_rec (delay : Q) : rec := mkRec (mkDob delay (-10) false) [].
