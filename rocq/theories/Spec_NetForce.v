(* Words for the recorded net force of a group. *)
From Verif Require Import Lib Model_Store Spec_Store.
Local Open Scope Z_scope.

(* a particle with this id is alive on the processor with this store *)
Definition is_on (s : store) (id : Z) : bool := existsb (fun p => aliveb p && (p_gid p =? id)) (firstn (st_size s) (st_mem s)).
(* component d of the force on the living particle with this id; 0 if there is none *)
Definition force_on_id (s : store) (id : Z) (d : nat) : Q :=
  match find (fun p => aliveb p && (p_gid p =? id)) (firstn (st_size s) (st_mem s)) with
  | Some p => match nth d (p_f p) None with Some q => q | None => 0%Q end
  | None => 0%Q
  end.
Definition qsum (l : list Q) : Q := fold_right Qplus 0%Q l.
(* the place of a living particle *)
Definition sits (s : store) (id : Z) (l : nat) : Prop := exists p, at_ s l p /\ alive p /\ p_gid p = id.
(* all forces are numbers, one per dimension *)
Definition forces_known (dims : nat) (s : store) : Prop :=
  st_dims s = dims /\ forall p, In p (firstn (st_size s) (st_mem s)) -> length (p_f p) = dims /\ ~ In None (p_f p).
(* if the flag says that no local id has changed since an earlier state of the store, then none has *)
Definition told (ids : list Z) (before now : store) : Prop :=
  st_locals now = true \/ forall id l, In id ids -> (sits before id l <-> sits now id l).
