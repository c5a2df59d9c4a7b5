(* What happens to particles and to the bonds between them with time (C150). *)
From Verif Require Import Lib Model_Store Spec_Store Model_Group Spec_Group Model_Bonds.
Local Open Scope Z_scope.

(* Calls on the store that leave every particle where it is. *)
Definition quiet (o : op) : Prop :=
  match o with OpRemove | OpSort | OpSortAlong | OpRemoveBad _ | OpShift _ => False | _ => True end.
Inductive calls (P : op -> Prop) : store -> store -> Prop :=
| calls_nil s : calls P s s
| calls_one s o s1 s2 : P o -> id_op o -> allowed s o -> step o s = Some s1 -> calls P s1 s2 -> calls P s s2.

(* The log of bonds: which particles, and where they were when the bond was made. *)
Definition made := list (Z * Z * (list num * list num)).
(* Bonds are made and calls on the store happen; the forces of a step are computed, after which only quiet calls may follow before the
   run loop clears the flag (gflow.cpp 272) at the end of the step. *)
Inductive bonded_history (s0 : store) : store -> bonds -> made -> Prop :=
| bonded_start : bonded_history s0 s0 no_bonds []
| bonded_calls s b m s' : bonded_history s0 s b m -> calls (fun _ => True) s s' -> bonded_history s0 s' b m
| bonded_add s b m g1 g2 l1 l2 p1 p2 b' : bonded_history s0 s b m ->
    at_ s l1 p1 -> alive p1 -> p_gid p1 = g1 -> at_ s l2 p2 -> alive p2 -> p_gid p2 = g2 ->
    addBond s g1 g2 b = Some b' -> bonded_history s0 s b' (m ++ [(g1, g2, (p_x p1, p_x p2))])
| bonded_step s b m l b' s' f : bonded_history s0 s b m -> bond_interact s b = Some (l, b') -> calls quiet s s' ->
    bonded_history s0 (set_flags false f s') b' m.

(* A pair on which the bonds act is the pair that this bond was made between, as it is now; the distance is that at which it was made. *)
Definition is_living (s : store) (g : Z) (p : part) : Prop := alive p /\ p_gid p = g /\ exists l, at_ s l p.
Definition joins (s : store) (e : Z * Z * (list num * list num)) (r : part * part * (list num * list num)) : Prop :=
  is_living s (fst (fst e)) (fst (fst r)) /\ is_living s (snd (fst e)) (snd (fst r)) /\ snd r = snd e.
Definition both_live (s : store) (e : Z * Z * (list num * list num)) : Prop := lives s (fst (fst e)) /\ lives s (snd (fst e)).

(* The same for a chain: the log is that of the links between one atom and the next. *)
Inductive chain_history (s0 : store) : store -> chain -> list Z -> made -> Prop :=
| chain_start : chain_history s0 s0 no_chain [] []
| chain_calls s c a m s' : chain_history s0 s c a m -> calls (fun _ => True) s s' -> chain_history s0 s' c a m
| chain_first s c g c' : chain_history s0 s c [] [] -> lives s g -> st_remake s = true -> addAtom s g c = Some c' -> chain_history s0 s c' [g] []
| chain_next s c a g0 m g l1 l2 p1 p2 c' : chain_history s0 s c (a ++ [g0]) m ->
    at_ s l1 p1 -> alive p1 -> p_gid p1 = g0 -> at_ s l2 p2 -> alive p2 -> p_gid p2 = g ->
    addAtom s g c = Some c' -> chain_history s0 s c' ((a ++ [g0]) ++ [g]) (m ++ [(g0, g, (p_x p1, p_x p2))])
| chain_step s c a m l c' s' f : chain_history s0 s c a m -> chain_interact s c = Some (l, c') -> calls quiet s s' ->
    chain_history s0 (set_flags false f s') c' a m.
