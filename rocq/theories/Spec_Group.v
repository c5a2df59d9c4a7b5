(* Vocabulary for groups (C44), independent of how they are updated. *)
From Verif Require Import Lib Model_Store Spec_Store Model_Group.
Local Open Scope Z_scope.

(* The particle with this id is in the store at this address, alive. *)
Definition lives_at (s : store) (gid : Z) (l : nat) : Prop := exists p, at_ s l p /\ alive p /\ p_gid p = gid.
Definition lives (s : store) (gid : Z) : Prop := exists l, lives_at s gid l.
(* The same, as a test: some entry of the store has the id and is alive. *)
Definition livesb (s : store) (gid : Z) : bool := existsb (fun p => aliveb p && (p_gid p =? gid)) (firstn (st_size s) (st_mem s)).

(* The members of the group are exactly these particles, in this order, and the local ids are their addresses. *)
Definition holds (s : store) (g : group) (gids : list Z) : Prop :=
  g_gids g = gids /\ Forall2 (fun gid lid => exists l, lid = Z.of_nat l /\ lives_at s gid l) gids (g_lids g).

(* What happens to a store and a group with time: calls on the store (creating ids in the normal way) and updates of the group. *)
Inductive event := EStore (o : op) | EUpdate.
Inductive history : store * group -> store * group -> Prop :=
| hist_nil c : history c c
| hist_store c s g o s' : history c (s, g) -> id_op o -> allowed s o -> step o s = Some s' -> history c (s', g)
| hist_update c s g g' : history c (s, g) -> update_local_ids s g = Some g' -> history c (s, g').

(* A group made by adding these ids, one after the other. *)
Definition made_of (ids : list Z) : group := fold_left (fun g id => group_add id g) ids group_of_gflow.

(* The same when the group is only updated if the store asks for it, after each call on the store; the run loop clears the flag
   (gflow.cpp 272). *)
Inductive lazily : store * group -> store * group -> Prop :=
| lazy_nil c : lazily c c
| lazy_store c s g o s' g' : lazily c (s, g) -> id_op o -> allowed s o -> step o s = Some s' -> update_if_needed s' g = Some g' -> lazily c (s', g')
| lazy_flag c s g b : lazily c (s, g) -> lazily c (set_flags false b s, g).
