(* Clusters of particles: dataobjects/clustering.cpp, dataobjects/percolationsnapshot.cpp. Paths under /repo/GFlowSim/src.
   near id: the result of handler->getAllWithin(id, neighbors, 2*Sg(id) + skin) (modelled in Model_Cells), any function here.
   None: memory outside of a vector is used, or the loop has not ended after the given number of rounds (excluded by the theorems). *)
From Coq Require Import List Bool ZArith.
Import ListNotations.
Local Open Scope Z_scope.

(* clusters[i] = k *)
Fixpoint set_at (i : nat) (k : Z) (c : list Z) : option (list Z) :=
  match c, i with
  | [], _ => None
  | _ :: t, O => Some (k :: t)
  | a :: t, S j => match set_at j k t with None => None | Some t' => Some (a :: t') end
  end.

(* clustering.cpp 42-48: the loop over the neighbors *)
Fixpoint push_all (same : bool) (types : list Z) (k ht : Z) (nbs : list nat) (stack : list nat) (c : list Z) : option (list nat * list Z) :=
  match nbs with
  | [] => Some (stack, c)
  | m :: t =>
      match nth_error c m, nth_error types m with
      | Some cm, Some tm =>
          if (cm =? -1) && (negb same || (tm =? ht)) && negb (tm =? -1) then
            match set_at m k c with None => None | Some c' => push_all same types k ht t (m :: stack) c' end
          else push_all same types k ht t stack c
      | _, _ => None
      end
  end.
(* clustering.cpp 32-49: the stack, its top first; size is cluster_sizes[n_clusters] *)
Fixpoint explore (fuel : nat) (same : bool) (types : list Z) (near : nat -> list nat) (k ht : Z) (stack : list nat) (c : list Z) (size : Z) : option (list Z * Z) :=
  match stack with
  | [] => Some (c, size)
  | id :: st =>
      match fuel with
      | O => None
      | S f => match set_at id k c with
               | None => None
               | Some c1 => match push_all same types k ht (near id) st c1 with
                            | None => None
                            | Some (st', c') => explore f same types near k ht st' c' (size + 1)
                            end
               end
      end
  end.

(* clustering.hpp 38-54 *)
Record clustering := mkCl { cl_clusters : list Z; cl_sizes : list Z; cl_n : Z; cl_max : Z; cl_same : bool }.
(* clustering.cpp 9 *)
Definition clustering0 : clustering := mkCl [] [] 0 0 true.
(* clustering.cpp 27-57, 85-90 get_next: the heads are the slots 0, then the slots that are still uncatagorized and whose type is not -1 when
   they are reached. first: slot 0, which is not checked *)
Fixpoint heads (same : bool) (types : list Z) (near : nat -> list nat) (number : nat) (hs : list nat) (first : bool) (s : clustering) : option clustering :=
  match hs with
  | [] => Some s
  | h :: t =>
      match nth_error (cl_clusters s) h, nth_error types h with
      | Some ch, Some th =>
          if first || ((ch =? -1) && negb (th =? -1)) then
            match explore (S number) same types near (cl_n s) th [h] (cl_clusters s) 0 with
            | None => None
            | Some (c', size) => heads same types near number t false (mkCl c' (cl_sizes s ++ [size]) (cl_n s + 1) (Z.max (cl_max s) size) (cl_same s))
            end
          else heads same types near number t false s
      | _, _ => None
      end
  end.
(* clustering.cpp 11-58 findClusters; number = simData->number() *)
Definition findClusters (types : list Z) (near : nat -> list nat) (number : nat) (s : clustering) : option clustering :=
  match number with
  | O => Some s
  | _ => heads (cl_same s) types near number (seq 0 number) true (mkCl (repeat (-1) number) [] 0 (cl_max s) (cl_same s))
  end.

(* percolationsnapshot.cpp 29-46: the slots of each cluster; constituents[clus] is outside of the array for clus = -1 *)
Fixpoint add_to (i : nat) (c : Z) (l : list (list nat)) : option (list (list nat)) :=
  if c <? 0 then None else
  match l with [] => None | a :: t => if c =? 0 then Some ((a ++ [i]) :: t) else match add_to i (c - 1) t with None => None | Some t' => Some (a :: t') end end.
Fixpoint constituents (i : nat) (cs : list Z) (l : list (list nat)) : option (list (list nat)) :=
  match cs with [] => Some l | c :: t => match add_to i c l with None => None | Some l' => constituents (S i) t l' end end.
Definition snapshot (s : clustering) : option (list (list nat)) := constituents 0 (cl_clusters s) (repeat [] (Z.to_nat (cl_n s))).
