(* Vocabulary for reports (C122, C123, C124). *)
From Coq Require Import QArith List Bool ZArith Ascii.
From Verif Require Import Lib Model_Save Model_Report.
Import ListNotations.

(* A text cut at each occurrence of a character: the lines of a file end with a newline, the fields of a line are separated by commas. *)
Fixpoint cut (c : ascii) (s : chars) : list chars :=
  match s with
  | [] => [[]]
  | a :: t => if Ascii.eqb a c then [] :: cut c t else match cut c t with [] => [[a]] | l :: r => (a :: l) :: r end
  end.
(* the fields of each line of a file; what follows the last newline must be empty *)
Inductive csv_file : chars -> list (list chars) -> Prop :=
| csv_nil : csv_file [] []
| csv_line l s rest : ~ In newline l -> csv_file s rest -> csv_file (l ++ newline :: s) (cut comma l :: rest).

Definition plain_text (s : chars) : Prop := ~ In comma s /\ ~ In newline s.

(* a table whose texts contain neither commas nor newlines *)
Definition plain_db (show : Q -> chars) (b : database) : Prop :=
  plain_text (b_row b) /\ (forall e, In e (b_cols b) -> plain_text (e_name e)) /\ (forall q, plain_text (show q)).
(* The fields of a column. *)
Definition header_fields (e : entry) : list chars :=
  match e_percent e with
  | None => [e_name e]
  | Some _ => [e_name e; e_name e ++ [" "; "-"; " "; "%"]%char]
  end.
Definition cell_fields (show : Q -> chars) (e : entry) (i : nat) : list chars :=
  match e_percent e with
  | None => [match nth_error (e_data e) i with Some v => show v | None => [] end]
  | Some total => match nth_error (e_data e) i with Some v => [show v; show (v / total * 100)%Q ++ ["%"%char]] | None => [[]; []] end
  end.

(* A number read back from its digits, and a time from its numbers, each 60 of the next. *)
Definition decimal (s : chars) : nat := fold_left (fun a c => (10 * a + (nat_of_ascii c - 48))%nat) s 0%nat.
Definition all_digits (s : chars) : Prop := s <> [] /\ forall c, In c s -> (48 <= nat_of_ascii c <= 57)%nat.
Definition read_time (s : chars) : nat := fold_left (fun a f => (60 * a + decimal f)%nat) (cut ":"%char s) 0%nat.

(* times from t on, each at most h after the one before *)
Fixpoint steps_from (h t : Q) (l : list Q) : Prop :=
  match l with [] => True | a :: r => t <= a /\ a <= t + h /\ steps_from h a r end.
