(* Specification vocabulary for C23 and C24. *)
From Verif Require Import Lib Model_Handlers.
Local Open Scope list_scope.

(* The pairs added to list l since the last clear. *)
Definition added (l : nat) (cs : list call) : list (Z * Z) :=
  fold_left (fun acc c => match c with
                          | AddPair a b l' => if (l' =? l)%nat then acc ++ [(a, b)] else acc
                          | Close => acc
                          | Clear => [] end) cs [].
(* The calls name one of the three lists. *)
Definition valid_lists (cs : list call) : Prop := forall a b l, In (AddPair a b l) cs -> (l < 3)%nat.

(* A call setInteraction(type1, type2, it, reflexive). *)
Record setting := mkSet { s_a : nat; s_b : nat; s_it : option nat; s_refl : bool }.
Fixpoint apply_settings (cutoff : nat -> Q) (ss : list setting) (fm : force_master) : option force_master :=
  match ss with
  | [] => Some fm
  | s :: ss' => match setInteraction cutoff (s_a s) (s_b s) (s_it s) (s_refl s) fm with
                | Some fm1 => apply_settings cutoff ss' fm1 | None => None end
  end.
(* The setting concerns the ordered pair (a, b) ... *)
Definition concerns (s : setting) (a b : nat) : Prop := (s_a s = a /\ s_b s = b) \/ (s_refl s = true /\ s_a s = b /\ s_b s = a).
(* ... and it is what the last such setting says that holds for the pair: null if there is none. *)
Inductive in_force : list setting -> nat -> nat -> option nat -> Prop :=
| IF_none ss a b : (forall s, In s ss -> ~ concerns s a b) -> in_force ss a b None
| IF_last ss s ss' a b : concerns s a b -> (forall s', In s' ss' -> ~ concerns s' a b) -> in_force (ss ++ s :: ss') a b (s_it s).
(* Types are valid. *)
Definition valid_types (n : nat) (ss : list setting) : Prop := forall s, In s ss -> (s_a s < n)%nat /\ (s_b s < n)%nat.
