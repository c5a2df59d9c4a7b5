(* Data objects about groups: dataobjects/graphobjects/grouptorque.cpp, persistence-length.cpp, dataobjects/multigraphobjects/groupangular.cpp,
   twopolymerbinforce.cpp. Paths under /repo/GFlowSim/src. Exact real arithmetic; the worlds and groups are those of Model_GroupMeasure.
   Not modelled: the constructors of GroupTorque and GroupAngular that are given a group, whose parameter GFlow* has no name, so that the
   uninitialised member of that name is used; the temperature and density that give the normalisation of TwoPolymerBinForce. *)
From Coq Require Import Reals List Bool ZArith.
From Verif Require Import Model_Forces Model_GroupMeasure.
Import ListNotations.
Local Open Scope R_scope.

(* ---------- groupangular.cpp 43-58: II, L, T; None for a member of infinite mass *)
Fixpoint angular_loop (w : world) (com : vec) (ids : list nat) (acc : R * R * R) : option (R * R * R) :=
  match ids with
  | [] => Some acc
  | id :: t =>
      match recip (w_im w id) with
      | None => None
      | Some m =>
          let X := disp w (w_x w id) com in
          let '(J, L, T) := acc in
          angular_loop w com t (J + m * dot (w_dims w) X X, L + cross2 X (vscale m (w_v w id)), T + cross2 X (w_f w id))
      end
  end.
(* groupangular.cpp 31-59 calculate_angular_quantities *)
Definition angular (w : world) (ids : list nat) : option (R * R * R) :=
  match findCenterOfMass w ids with None => None | Some com => angular_loop w com ids (0, 0, 0) end.
(* grouptorque.cpp 19-42 calculate_torque *)
Definition group_torque (w : world) (ids : list nat) : option R :=
  match findCenterOfMass w ids with
  | None => None
  | Some com => Some (fold_left (fun T id => T + cross2 (disp w (w_x w id) com) (w_f w id)) ids 0)
  end.

(* ---------- persistence-length.cpp *)
(* 28-30, 35-39: the direction of the bond from the i-th to the next member *)
Definition bond_dir (w : world) (ids : list nat) (i : nat) : vec :=
  unit_of (w_dims w) (disp w (w_x w (nth (S i) ids 0%nat)) (w_x w (nth i ids 0%nat))).
(* 9-14 pre_integrate: dataobjecttypes/graphobject.cpp 52-63 makeBins(1, n+1, n-2); the number of samples is 0 *)
Definition persist_pre (n : nat) : list (R * R) * nat :=
  (map (fun i => (if (1 <? n - 2)%nat then 1 + (INR n + 1 - 1) / (INR (n - 2) - 1) * INR i else / 2 * (1 + (INR n + 1)), 0)) (seq 0 (n - 2)), 0%nat).
(* 16-46 post_step, when it is time to record *)
Definition persist_step (w : world) (ids : list nat) (d : list (R * R) * nat) : list (R * R) * nat :=
  if (length ids <? 3)%nat then d else
  (map (fun i => (fst (nth i (fst d) (0, 0)),
                  snd (nth i (fst d) (0, 0)) + dot (w_dims w) (bond_dir w ids (i + 1)) (bond_dir w ids 0))) (seq 0 (length ids - 2)),
   S (snd d)).
(* 48-54 post_integrate *)
Definition persist_post (d : list (R * R) * nat) : list (R * R) :=
  if (0 <? snd d)%nat then map (fun i => (INR (i + 1), snd (nth i (fst d) (0, 0)) / INR (snd d))) (seq 0 (length (fst d))) else fst d.
(* a run with samples: the worlds, and the local ids of the members then *)
Definition persist_run (n : nat) (samples : list (world * list nat)) : list (R * R) :=
  persist_post (fold_left (fun d s => persist_step (fst s) (snd s) d) samples (persist_pre n)).

(* ---------- twopolymerbinforce.cpp *)
Record near := mkNear { n_d1 : R; n_d2 : R; n_A : vec; n_B : vec }.
(* 149-170: one particle of the other polymer *)
Definition near_step (w : world) (X1 : vec) (st : near) (id2 : nat) : near :=
  let dX := disp w (w_x w id2) X1 in
  let d := sqrt (dot (w_dims w) dX dX) in
  if Rlt_dec d (n_d1 st) then mkNear d (n_d1 st) dX (n_A st)
  else if Rlt_dec d (n_d2 st) then mkNear (n_d1 st) d (n_A st) dX
  else st.
(* 145, 149: the distances start at 10000; A and B are those of the previous particle *)
Definition near_loop (w : world) (X1 A B : vec) (second : list nat) : near := fold_left (near_step w X1) second (mkNear 10000 10000 A B).
(* 173-182: the point on the line between the two closest; 0/0 is neither <= nor >= *)
Definition onto_line (w : world) (more : bool) (st : near) : R * vec :=
  if more then
    let dX := vsub (n_B st) (n_A st) in
    let q := dot (w_dims w) dX dX in
    if Req_EM_T q 0 then (n_d1 st, n_A st) else
    let lambda := - dot (w_dims w) dX (n_A st) / q in
    if Rle_dec 0 lambda then
      if Rle_dec lambda 1 then
        let A := vplus (n_A st) (vscale lambda dX) in (sqrt (dot (w_dims w) A A), A)
      else (n_d1 st, n_A st)
    else (n_d1 st, n_A st)
  else (n_d1 st, n_A st).

Record poly := mkPoly { p_lo : R; p_hi : R; p_bins : Z; p_ctype : Z; p_type : nat -> Z; p_norm : R;
                        p_chain : option (nat -> vec) }.
(* the three columns of bin k *)
Definition table := Z -> R * R * R.
Definition bump (k : Z) (a b c : R) (t : table) : table := fun k' =>
  if (k' =? k)%Z then let '(x, y, z) := t k' in (x + a, y + b, z + c) else t k'.
(* 185-204: the bin and the forces; the conversion to int of a number that is not negative *)
Definition bin_force (w : world) (p : poly) (id1 : nat) (DA : R * vec) (t : table) : table * vec :=
  let '(D, A) := DA in
  if Rle_dec (p_lo p) D then
    if Rlt_dec D (p_hi p) then
      let dr := (p_hi p - p_lo p) / IZR (p_bins p) in
      let bx := Int_part ((D - p_lo p) / dr) in
      let n := unit_of (w_dims w) A in
      match p_chain p with
      | Some fr => (bump bx (dot (w_dims w) n (vsub (w_f w id1) (fr id1)) * p_norm p) (dot (w_dims w) n (fr id1)) 1 t, n)
      | None => (bump bx (dot (w_dims w) n (w_f w id1) * p_norm p) 0 1 t, n)
      end
    else (t, A)
  else (t, A).
(* 125-206 find_forces; p_chain: the forces of the chain of the first polymer on itself (getForceByID), if both chains are set *)
Fixpoint force_loop (w : world) (p : poly) (second : list nat) (first : list nat) (st : table * vec * vec) : table * vec * vec :=
  match first with
  | [] => st
  | id1 :: rest =>
      let '(t, A, B) := st in
      if (p_type p id1 =? p_ctype p)%Z then force_loop w p second rest st else
      let nr := near_loop w (w_x w id1) A B second in
      let '(t', A') := bin_force w p id1 (onto_line w (1 <? length second)%nat nr) t in
      force_loop w p second rest (t', A', n_B nr)
  end.
Definition find_forces (w : world) (p : poly) (first second : list nat) (t : table) : table :=
  fst (fst (force_loop w p second first (t, zerov, zerov))).
(* 62-79 post_integrate: the row of bin k *)
Definition poly_row (p : poly) (radius : R) (t : table) (k : Z) : R * R * R * R :=
  let dr := (p_hi p - p_lo p) / IZR (p_bins p) in
  let '(x, y, c) := t k in
  if Rlt_dec 0 c then ((IZR k + / 2) * dr + p_lo p, x / (2 * radius * c), y / (2 * radius * c), c)
  else ((IZR k + / 2) * dr + p_lo p, x, y, c).
