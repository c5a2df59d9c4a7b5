(* Recorded series: dataobjects/dataobjecttypes/data-base/multigraphdata.{hpp,cpp}, dataobjects/dataobjecttypes/graphobject.cpp,
   dataobjects/multigraphobjects/oscillation-data.cpp. Paths under /repo/GFlowSim/src. Exact rationals for real.
   None: an exception, memory outside of a vector, or NaN. *)
From Coq Require Import QArith List Bool ZArith.
Import ListNotations.
Local Open Scope Q_scope.

(* multigraphdata.hpp 67-85: multi_data (column 0 is x), write_data, ndata *)
Record mg := mkM { m_nd : Z; m_cols : list (list Q); m_write : list bool }.
Definition with_cols (c : list (list Q)) (m : mg) : mg := mkM (m_nd m) c (m_write m).

(* vector<real>(size, 0) for each of the ndata+1 columns; multigraphdata.cpp 83-86 resetData *)
Definition resetData (size : Z) (m : mg) : mg :=
  if (0 <? size)%Z then with_cols (repeat (repeat 0 (Z.to_nat size)) (Z.to_nat (m_nd m + 1))) m
  else with_cols (repeat [] (Z.to_nat (m_nd m + 1))) m.
(* multigraphdata.cpp 5-25: the constructors *)
Definition create (nd : Z) : option mg :=
  if (nd <=? 0)%Z then None else Some (resetData 0 (mkM nd [] (repeat true (Z.to_nat nd)))).

(* multigraphdata.cpp 88-92 addEntry() *)
Definition addEntry0 (m : mg) : mg := with_cols (map (fun c => c ++ [0]) (m_cols m)) m.
(* v[v.size()-1] = a, for a vector that is not empty *)
Definition set_back (a : Q) (c : list Q) : list Q := removelast c ++ [a].
Definition upd_col (j : nat) (f : list Q -> list Q) (cs : list (list Q)) : list (list Q) :=
  firstn j cs ++ match skipn j cs with [] => [] | c :: t => f c :: t end.
(* multigraphdata.cpp 94-100 addEntry(v) *)
Definition addEntry (v : Q) (m : mg) : mg := let m1 := addEntry0 m in with_cols (upd_col 0 (set_back v) (m_cols m1)) m1.
Definition is_nil {A} (l : list A) : bool := match l with [] => true | _ => false end.
(* multigraphdata.cpp 102-107: getX() = v *)
Definition putX (v : Q) (m : mg) : option mg :=
  if is_nil (nth 0 (m_cols m) []) then None else Some (with_cols (upd_col 0 (set_back v) (m_cols m)) m).
(* multigraphdata.cpp 109-116: getY(i) as a value, and getY(i) = v *)
Definition getY (i : Z) (m : mg) : option Q :=
  if is_nil (nth 0 (m_cols m) []) then None else if (i <? 0)%Z || (m_nd m <=? i)%Z then None
  else Some (last (nth (S (Z.to_nat i)) (m_cols m) []) 0).
Definition putY (i : Z) (v : Q) (m : mg) : option mg :=
  if is_nil (nth 0 (m_cols m) []) then None else if (i <? 0)%Z || (m_nd m <=? i)%Z then None
  else Some (with_cols (upd_col (S (Z.to_nat i)) (set_back v) (m_cols m)) m).

(* multigraphdata.cpp 61-68 ave *)
Definition ave (i : Z) (m : mg) : Q :=
  if (i <? 0)%Z || (m_nd m <=? i)%Z || is_nil (m_cols m) || is_nil (nth 0 (m_cols m) []) then 0
  else fold_left Qplus (nth (S (Z.to_nat i)) (m_cols m) []) 0 / inject_Z (Z.of_nat (length (nth 0 (m_cols m) []))).
(* multigraphdata.cpp 70-78 getEntry *)
Definition getEntry (i : Z) (m : mg) : list (Q * Q) :=
  if (i <? 0)%Z || (m_nd m <=? i)%Z || is_nil (m_cols m) || is_nil (nth 0 (m_cols m) []) then []
  else map (fun j => (nth j (nth 0 (m_cols m) []) 0, nth j (nth (S (Z.to_nat i)) (m_cols m) []) 0)) (seq 0 (length (nth 0 (m_cols m) []))).
(* multigraphdata.cpp 80-82 size *)
Definition size (m : mg) : nat := length (m_cols m).
(* multigraphdata.cpp 27-59 write_to_file: the numbers of each line of the file (no file when there is nothing) *)
Definition lines (m : mg) : list (list Q) :=
  if is_nil (m_cols m) || is_nil (nth 0 (m_cols m) []) then []
  else map (fun i => map (fun j => nth i (nth j (m_cols m) []) 0)
              (filter (fun j => (j =? 0)%nat || nth (j - 1) (m_write m) false) (seq 0 (Z.to_nat (m_nd m + 1)))))
         (seq 0 (length (nth 0 (m_cols m) []))).

(* mpi_sum0 of arrays with k entries (parallel/mpi-communication.hpp 108-117): what rank 0 gets *)
Definition sum0 (k : nat) (ranks : list (list Q)) : list Q := map (fun d => fold_left Qplus (map (fun y => nth d y 0) ranks) 0) (seq 0 k).
Fixpoint put_all (d : Z) (ys : list Q) (m : mg) : option mg :=
  match ys with [] => Some m | y :: t => match putY d y m with None => None | Some m1 => put_all (d + 1) t m1 end end.
(* multigraphdata.cpp 145-157 gatherData on rank 0; ranks: the values of the processes, k numbers each *)
Definition gatherData (x : Q) (k : nat) (ranks : list (list Q)) (m : mg) : option mg := put_all 0 (sum0 k ranks) (addEntry x m).
(* multigraphdata.cpp 129-143 gatherAverageData on rank 0; None also when all counts are 0 (0/0 is stored) *)
Definition gatherAverageData (x : Q) (k : nat) (ranks : list (list Q)) (counts : list Z) (m : mg) : option mg :=
  let c := fold_left Z.add counts 0%Z in
  if (c =? 0)%Z then None else put_all 0 (map (fun y => y / inject_Z c) (sum0 k ranks)) (addEntry x m).

(* ---------- graphobject.cpp: a series of pairs ---------- *)
(* 19-21 addEntry *)
Definition g_add (t f : Q) (d : list (Q * Q)) : list (Q * Q) := d ++ [(t, f)].
(* 23-31 ave *)
Definition g_ave (d : list (Q * Q)) : Q := match d with [] => 0 | _ => fold_left (fun a v => a + snd v) d 0 / inject_Z (Z.of_nat (length d)) end.
(* 33-41 first, last *)
Definition g_first (d : list (Q * Q)) : Q * Q := match d with v :: _ => v | [] => (0, 0) end.
Definition g_last (d : list (Q * Q)) : Q * Q := match d with [] => (0, 0) | _ => nth (length d - 1) d (0, 0) end.
(* 52-63 makeBins *)
Definition makeBins (mn mx : Q) (n : Z) : list (Q * Q) :=
  if (0 <? n)%Z then
    if (1 <? n)%Z then let dbin := (mx - mn) / inject_Z (n - 1) in map (fun i => (mn + dbin * inject_Z (Z.of_nat i), 0)) (seq 0 (Z.to_nat n))
    else [((1#2) * (mn + mx), 0)]
  else [].
(* 87-117 gatherAverageData (count or weight), gatherData on rank 0; None: NaN or a division by zero *)
Definition g_gather (x : Q) (ys : list Q) (d : list (Q * Q)) : list (Q * Q) := g_add x (fold_left Qplus ys 0) d.
Definition g_gather_ave (x : Q) (ys ws : list Q) (d : list (Q * Q)) : option (list (Q * Q)) :=
  let w := fold_left Qplus ws 0 in if Qeq_bool w 0 then None else Some (g_add x (fold_left Qplus ys 0 / w) d).

(* ---------- oscillation-data.cpp 43-59 post_integrate on rank 0: ndata_points is 0, as nothing changes it; the loop over the columns
   works on copies. The value is multi_data afterwards; None: ave[i-1] is outside of the array of dims numbers. *)
Definition osc_post_integrate (dims : nat) (m : mg) : option mg :=
  if forallb (fun c => (length c - 1 <=? dims)%nat) (m_cols m) then Some m else None.
