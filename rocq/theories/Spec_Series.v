(* Vocabulary for recorded series (C49): a table is a list of rows, each with its x and its y values. *)
From Coq Require Import QArith List Bool ZArith.
From Verif Require Import Model_Series.
Import ListNotations.
Local Open Scope Q_scope.

Definition row := (Q * list Q)%type.
Inductive op := Reset (n : Z) | Add0 | Add (x : Q) | PutX (x : Q) | PutY (i : Z) (y : Q).
(* What each call does to the rows, for n values in each row *)
Definition zeros (n : nat) : list Q := repeat 0 n.
Fixpoint set_nth (i : nat) (y : Q) (l : list Q) : list Q := match l, i with [], _ => [] | _ :: t, O => y :: t | a :: t, S i => a :: set_nth i y t end.
Definition change_last (f : row -> row) (t : list row) : option (list row) :=
  match rev t with [] => None | r :: s => Some (rev s ++ [f r]) end.
Definition row_step (n : nat) (o : op) (t : list row) : option (list row) :=
  match o with
  | Reset k => Some (repeat (0, zeros n) (Z.to_nat k))
  | Add0 => Some (t ++ [(0, zeros n)])
  | Add x => Some (t ++ [(x, zeros n)])
  | PutX x => change_last (fun r => (x, snd r)) t
  | PutY i y => if (0 <=? i)%Z && (i <? Z.of_nat n)%Z then change_last (fun r => (fst r, set_nth (Z.to_nat i) y (snd r))) t else None
  end.
Fixpoint row_run (n : nat) (l : list op) (t : list row) : option (list row) :=
  match l with [] => Some t | o :: l' => match row_step n o t with None => None | Some t' => row_run n l' t' end end.
(* The same calls on the object *)
Definition mg_step (o : op) (m : mg) : option mg :=
  match o with Reset k => Some (resetData k m) | Add0 => Some (addEntry0 m) | Add x => Some (addEntry x m) | PutX x => putX x m | PutY i y => putY i y m end.
Fixpoint mg_run (l : list op) (m : mg) : option mg :=
  match l with [] => Some m | o :: l' => match mg_step o m with None => None | Some m' => mg_run l' m' end end.

(* The columns hold just these rows. *)
Definition holds (m : mg) (n : nat) (t : list row) : Prop :=
  m_nd m = Z.of_nat n /\ (0 < n)%nat /\ length (m_write m) = n /\ Forall (fun r => length (snd r) = n) t /\
  m_cols m = map fst t :: map (fun i => map (fun r => nth i (snd r) 0) t) (seq 0 n).
Definition total (l : list Q) : Q := fold_right Qplus 0 l.
