(* Which particles bonds and chains join: src/bonded/bond.{hpp,cpp}, harmonicbond.cpp, harmonicbond_{2d,3d}.cpp, harmonic-chain.cpp,
   on the particle store of Model_Store. All paths are under /repo/GFlowSim/src. The forces they exert are in Model_Forces. Ids are Z
   (no overflow). The equilibrium distance of a bond is modelled by the two positions whose distance it is. None: an exception, or
   undefined behaviour (an access outside of the arrays). *)
From Verif Require Import Lib Model_Store Model_Group.
Local Open Scope Z_scope.

(* bonded/bond.hpp 36-40, harmonicbond.hpp: the ids of the left and right particles, global and local, and the equilibrium distances *)
Record bonds := mkBonds { b_gleft : list Z; b_gright : list Z; b_left : list Z; b_right : list Z; b_rest : list (list num * list num) }.
(* bonded/bond.cpp 5: the constructor *)
Definition no_bonds : bonds := mkBonds [] [] [] [] [].

(* simData->X(id): the particle in that entry of the arrays *)
Definition entry (s : store) (id : Z) : option part := if id <? 0 then None else nth_error (st_mem s) (Z.to_nat id).

(* harmonicbond.cpp 10-25: HarmonicBond::addBond *)
Definition addBond (s : store) (gid1 gid2 : Z) (b : bonds) : option bonds :=
  let id1 := getLocalID gid1 s in let id2 := getLocalID gid2 s in
  match entry s id1, entry s id2 with
  | Some p1, Some p2 => Some (mkBonds (b_gleft b ++ [gid1]) (b_gright b ++ [gid2]) (b_left b ++ [id1]) (b_right b ++ [id2]) (b_rest b ++ [(p_x p1, p_x p2)]))
  | _, _ => None
  end.

(* bond.cpp 15-17: checkBondVectors. "left.size()==gleft.size() && gleft.size()==gright.size()" *)
Definition checkBondVectors (b : bonds) : bool :=
  (length (b_left b) =? length (b_right b))%nat && (length (b_left b) =? length (b_gleft b))%nat && (length (b_gleft b) =? length (b_gright b))%nat.
(* bond.cpp 24-29: the loop, n more bonds from i *)
Fixpoint bond_loop (lookup : Z -> Z) (n i : nat) (gl gr ll lr : list Z) : option (list Z * list Z) :=
  match n with
  | O => Some (ll, lr)
  | S m =>
      match nth_error gl i, nth_error gr i with
      | Some gid1, Some gid2 =>
          match zput i (lookup gid1) ll, zput i (lookup gid2) lr with
          | Some ll', Some lr' => bond_loop lookup m (S i) gl gr ll' lr'
          | _, _ => None
          end
      | _, _ => None
      end
  end.
(* bond.cpp 19-30: updateLocalIDs; None: UnequalBondVectors is thrown *)
Definition bond_update (s : store) (b : bonds) : option bonds :=
  if checkBondVectors b then
    match bond_loop (fun g => getLocalID g s) (length (b_left b)) 0 (b_gleft b) (b_gright b) (b_left b) (b_right b) with
    | Some (ll, lr) => Some (mkBonds (b_gleft b) (b_gright b) ll lr (b_rest b))
    | None => None
    end
  else None.

(* harmonicbond.cpp 43-46: the particles that bond i joins, and its distance, for the n bonds from i *)
Fixpoint bond_ends (s : store) (b : bonds) (n i : nat) : option (list (part * part * (list num * list num))) :=
  match n with
  | O => Some []
  | S m =>
      match nth_error (b_left b) i, nth_error (b_right b) i, nth_error (b_rest b) i with
      | Some id1, Some id2, Some r =>
          match entry s id1, entry s id2, bond_ends s b m (S i) with
          | Some p1, Some p2, Some l => Some ((p1, p2, r) :: l)
          | _, _, _ => None
          end
      | _, _, _ => None
      end
  end.
(* harmonicbond.cpp 27-59: HarmonicBond::interact; the number of bonds is taken before the update (line 32). The result is the list of
   the pairs that are pulled together, with the distance, and the bonds. *)
Definition bond_interact (s : store) (b : bonds) : option (list (part * part * (list num * list num)) * bonds) :=
  let nbonds := length (b_left b) in
  match (if st_remake s then bond_update s b else Some b) with
  | Some b' => match bond_ends s b' nbonds 0 with Some l => Some (l, b') | None => None end
  | None => None
  end.
(* harmonicbond_2d.cpp 9-65, harmonicbond_3d.cpp 9-105: the parent first, then the own loop, without bonds of dead particles *)
Definition bond_interact_own (s : store) (b : bonds) : option (list (part * part * (list num * list num)) * bonds) :=
  match bond_interact s b with
  | Some (_, b1) =>
      match bond_interact s b1 with
      | Some (l, b2) => Some (filter (fun e => negb ((p_type (fst (fst e)) <? 0) || (p_type (snd (fst e)) <? 0))) l, b2)
      | None => None
      end
  | None => None
  end.

(* harmonic-chain.hpp: the ids of the atoms and the distances between neighbours *)
Record chain := mkChain { h_gids : list Z; h_lids : list Z; h_rest : list (list num * list num) }.
Definition no_chain : chain := mkChain [] [] [].
(* harmonic-chain.cpp 9-29: addAtom. The local id of the first atom is its global id (11). *)
Definition addAtom (s : store) (gid : Z) (c : chain) : option chain :=
  match h_gids c with
  | [] => Some (mkChain (h_gids c ++ [gid]) (h_lids c ++ [gid]) (h_rest c))
  | _ =>
      let gid1 := last (h_gids c) 0 in
      let id1 := getLocalID gid1 s in let id := getLocalID gid s in
      match entry s id1, entry s id with
      | Some p1, Some p2 => Some (mkChain (h_gids c ++ [gid]) (h_lids c ++ [id]) (h_rest c ++ [(p_x p1, p_x p2)]))
      | _, _ => None
      end
  end.
(* harmonic-chain.cpp 69-73: the loop *)
Fixpoint chain_loop (lookup : Z -> Z) (n i : nat) (gids lids : list Z) : option (list Z) :=
  match n with
  | O => Some lids
  | S m => match nth_error gids i with
           | Some gid => match zput i (lookup gid) lids with Some lids' => chain_loop lookup m (S i) gids lids' | None => None end
           | None => None
           end
  end.
(* harmonic-chain.cpp 65-74: updateLocalIDs *)
Definition chain_update (s : store) (c : chain) : option chain :=
  match chain_loop (fun g => getLocalID g s) (length (h_gids c)) 0 (h_gids c) (h_lids c) with
  | Some l => Some (mkChain (h_gids c) l (h_rest c))
  | None => None
  end.
(* harmonic-chain.cpp 42-62: the loop, n more links from i: atoms i and i+1, distance i *)
Fixpoint chain_ends (s : store) (c : chain) (n i : nat) : option (list (part * part * (list num * list num))) :=
  match n with
  | O => Some []
  | S m =>
      match nth_error (h_lids c) i, nth_error (h_lids c) (S i), nth_error (h_rest c) i with
      | Some id1, Some id2, Some r =>
          match entry s id1, entry s id2, chain_ends s c m (S i) with
          | Some p1, Some p2, Some l => Some ((p1, p2, r) :: l)
          | _, _, _ => None
          end
      | _, _, _ => None
      end
  end.
(* harmonic-chain.cpp 35-63: interact; "i+1<local_ids.size()" *)
Definition chain_interact (s : store) (c : chain) : option (list (part * part * (list num * list num)) * chain) :=
  match (if st_remake s then chain_update s c else Some c) with
  | Some c' => match chain_ends s c' (length (h_lids c') - 1) 0 with Some l => Some (l, c') | None => None end
  | None => None
  end.
