(* Groups of particles, kept by global id: src/other/group.{hpp,cpp}. All paths are under /repo/GFlowSim/src.
   Ids are Z (no overflow). None: undefined behaviour (a null pointer is followed, a vector is accessed outside its
   bounds). The particle store is that of Model_Store. *)
From Verif Require Import Lib Model_Store.
Local Open Scope Z_scope.

(* group.hpp 96-107: the two id lists; whether sim_data points to a store *)
Record group := mkGroup { g_gids : list Z; g_lids : list Z; g_bound : bool }.

(* group.cpp 7-9: Group(shared_ptr<SimData>) assigns the parameter to itself; the member stays null. *)
Definition group_of_store : group := mkGroup [] [] false.
(* group.cpp 11-13: Group(GFlow* ) *)
Definition group_of_gflow : group := mkGroup [] [] true.
(* group.cpp 15-27, 154-156: copy constructor, operator=, set: all three members are copied. *)
Definition group_copy (g : group) : group := mkGroup (g_gids g) (g_lids g) (g_bound g).

(* group.cpp 29-43: size, at, g_at (vector::at throws outside: None) *)
Definition group_size (g : group) : nat := length (g_gids g).
Definition zat (i : Z) (l : list Z) : option Z := if i <? 0 then None else nth_error l (Z.to_nat i).
Definition group_at (i : Z) (g : group) : option Z := zat i (g_lids g).
Definition group_g_at (i : Z) (g : group) : option Z := zat i (g_gids g).

(* group.cpp 158-161 *)
Definition group_add (id : Z) (g : group) : group := mkGroup (g_gids g ++ [id]) (g_lids g ++ [id]) (g_bound g).

(* v[i] = a on a vector<int>; None: outside *)
Fixpoint zput (i : nat) (a : Z) (l : list Z) : option (list Z) :=
  match l, i with
  | [], _ => None
  | _ :: t, O => Some (a :: t)
  | b :: t, S j => option_map (cons b) (zput j a t)
  end.

(* group.cpp 224-233: the loop, n more rounds, at i, with _count = c; the store is only read *)
Fixpoint update_loop (lookup : Z -> Z) (n i c : nat) (gids lids : list Z) : option (nat * list Z * list Z) :=
  match n with
  | O => Some (c, gids, lids)
  | S m =>
      match nth_error gids i with
      | None => None
      | Some gid =>
          let lid := lookup gid in
          if -1 <? lid then
            match zput c lid lids with
            | None => None
            | Some lids' => match zput c gid gids with
                            | None => None
                            | Some gids' => update_loop lookup m (S i) (S c) gids' lids'
                            end
            end
          else update_loop lookup m (S i) c gids lids
      end
  end.
(* vector::resize to at most the present length, else padded with zeros *)
Definition zresize (n : nat) (l : list Z) : list Z := firstn n l ++ repeat 0 (n - length l).
(* group.cpp 220-236: update_local_ids *)
Definition update_local_ids (s : store) (g : group) : option group :=
  if g_bound g then
    match update_loop (fun k => getLocalID k s) (group_size g) 0 0 (g_gids g) (g_lids g) with
    | None => None
    | Some (c, gids, lids) => Some (mkGroup (zresize c gids) (zresize c lids) true)
    end
  else match g_gids g with [] => Some (mkGroup [] (zresize 0 (g_lids g)) false) | _ => None end.

(* group.cpp 238-240 *)
Definition group_shift (k : Z) (g : group) : group := mkGroup (map (fun i => i + k) (g_gids g)) (g_lids g) (g_bound g).

(* group.cpp 130-139: by local id; std::find *)
Fixpoint find_from (id : Z) (l : list Z) (i : Z) : Z :=
  match l with [] => -1 | a :: t => if a =? id then i else find_from id t (i + 1) end.
Definition getIndex (id : Z) (g : group) : Z := find_from id (g_lids g) 0.
Definition contains (id : Z) (g : group) : bool := existsb (fun a => a =? id) (g_lids g).

(* "if (simData->getNeedsRemake()) update_local_ids();": modifiers/force-remover.cpp 53, modifiers/torque-remover.cpp 55,
   body/wallslidebody.cpp 50, body/rigidbody_2d.cpp 14, bonded/twogroupharmonic.cpp 21-24, bonded/angle-harmonic-chain.cpp 38 *)
Definition update_if_needed (s : store) (g : group) : option group := if st_remake s then update_local_ids s g else Some g.

(* base/creator.cpp 145-152: the correction of the ids on processor [rank], for the store and one of the groups *)
Definition correct_group (rank : nat) (sizes : list nat) (g : group) : group :=
  if (0 <? rank)%nat then group_shift (Z.of_nat (fold_right Nat.add 0%nat (firstn rank sizes))) g else g.
