(* Specification vocabulary for the particle store (C01-C06, C11), independent of how the store works: which particles
   it holds, and what "sorted" and "alive" mean. *)
From Verif Require Import Lib Model_Store.
From Coq Require Import Permutation.
Local Open Scope Z_scope.

(* A particle is alive unless its type is negative. *)
Definition alive (p : part) : Prop := 0 <= p_type p.
Definition aliveb (p : part) : bool := negb (p_type p <? 0).

(* The entry at local id l (an address below size()). *)
Definition at_ (s : store) (l : nat) (p : part) : Prop := (l < st_size s)%nat /\ nth_error (st_mem s) l = Some p.
(* The particles the store holds, in storage order. *)
Definition particles (s : store) : list part := filter aliveb (firstn (st_size s) (st_mem s)).

(* C02: the lookup is exact. *)
Definition lookup_exact (s : store) : Prop :=
  forall g l, (getLocalID g s = Z.of_nat l <-> exists p, at_ s l p /\ alive p /\ p_gid p = g) /\
              (getLocalID g s = -1 <-> ~ exists k p, at_ s k p /\ alive p /\ p_gid p = g) /\
              (getLocalID g s = -1 \/ exists k, getLocalID g s = Z.of_nat k).

(* Entries 0..n-1 are in non-decreasing order of the coordinate [dim]. *)
Definition sorted_along (dim n : nat) (m : list part) : Prop :=
  forall i j p q, (i <= j < n)%nat -> nth_error m i = Some p -> nth_error m j = Some q ->
    exists a b, coord p dim = Some a /\ coord q dim = Some b /\ (a <= b)%Q.

(* Some component of the position or the velocity is NaN. *)
Definition has_nanb (p : part) : bool := existsb (fun a => match a with None => true | Some _ => false end) (p_x p ++ p_v p).
Definition has_nan (p : part) : Prop := In None (p_x p) \/ In None (p_v p).

(* Preconditions of the public operations (what a caller has to respect, in terms of the observable numbers):
   - a bulk add may exceed the capacity by at most 32;
   - a particle is added with a non-negative type;
   - local ids passed in are below the capacity;
   - removal must leave at least one particle, or there is nothing to remove. *)
Definition can_remove (s : store) : Prop := st_rm s = [] \/ 0 < st_number s.
Definition allowed (s : store) (o : op) : Prop :=
  match o with
  | OpAddMany n _ => Z.of_nat (st_size s) + n <= Z.of_nat (st_cap s) + 32
  | OpAdd _ _ _ _ t => 0 <= t
  | OpMark id | OpSetX id _ | OpSetV id _ | OpSetF id _ | OpSetSgIm id _ _ => 0 <= id < Z.of_nat (st_cap s)
  | OpRemove | OpSort | OpSortAlong => can_remove s
  | OpRemoveBad true => (forall k p, at_ s k p -> ~ has_nan p) \/ (exists k p, at_ s k p /\ alive p /\ ~ has_nan p)
  | OpRemoveBad false | OpShift _ | OpClearF | OpClearV => True
  end.

(* The stores a history of allowed calls can lead to. *)
Inductive reach (s0 : store) : store -> Prop :=
| reach_start : reach s0 s0
| reach_step s o s' : reach s0 s -> allowed s o -> step o s = Some s' -> reach s0 s'.

(* The same, with calls that create ids in the normal way (no ghost-style adds, no bare id shift). *)
Definition id_op (o : op) : Prop :=
  match o with OpAddMany _ ids => ids = true | OpShift _ => False | _ => True end.
Inductive reach_ids (s0 : store) : store -> Prop :=
| reachi_start : reach_ids s0 s0
| reachi_step s o s' : reach_ids s0 s -> id_op o -> allowed s o -> step o s = Some s' -> reach_ids s0 s'.

(* The global ids handed out by a history (in order): the ids of the entries appended by each adding call. *)
Definition appended (s s' : store) : list part := firstn (st_size s' - st_size s) (skipn (st_size s) (st_mem s')).
Fixpoint issued (ops : list op) (s : store) : list Z :=
  match ops with
  | [] => []
  | o :: ops' =>
      match step o s with
      | None => []
      | Some s' =>
          (match o with
           | OpAddMany _ true | OpAdd _ _ _ _ _ => map p_gid (appended s s')
           | _ => []
           end) ++ issued ops' s'
      end
  end.

(* A history all of whose calls respect the preconditions. *)
Fixpoint allowed_history (ops : list op) (s : store) : Prop :=
  match ops with
  | [] => True
  | o :: ops' => allowed s o /\ match step o s with Some s' => allowed_history ops' s' | None => True end
  end.

(* The alive particles of s whose address is not in ids. *)
Definition others (ids : list Z) (s : store) : list part :=
  map snd (filter (fun kp => aliveb (snd kp) && negb (existsb (Z.eqb (Z.of_nat (fst kp))) ids))
    (combine (seq 0 (st_size s)) (firstn (st_size s) (st_mem s)))).

(* C09: a processor on which only default adds happened. *)
Definition only_default_adds (o : op) : Prop :=
  match o with OpAdd _ _ _ _ _ => False | _ => id_op o end.
Inductive reach_default (s0 : store) : store -> Prop :=
| reachd_start : reach_default s0 s0
| reachd_step s o s' : reach_default s0 s -> only_default_adds o -> allowed s o -> step o s = Some s' -> reach_default s0 s'.

(* Marking each of the local ids; adding batches of default particles. *)
Definition mark_all (ids : list Z) : list op := map OpMark ids.
Definition add_ops (ks : list Z) : list op := map (fun k => OpAddMany k true) ks.
