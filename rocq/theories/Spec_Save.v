(* Vocabulary for saving and loading (C65-C67). *)
From Coq Require Import String Ascii List.
Import ListNotations.

(* the text of a number: characters 0-9 . - + e E, at least one of them not + *)
Definition number_char (c : ascii) : Prop := In c (list_ascii_of_string "0123456789.-+eE").
Definition number_text (s : list ascii) : Prop := (forall c, In c s -> number_char c) /\ exists c, In c s /\ c <> "+"%char.
(* the text without plus signs *)
Definition without_plus (s : list ascii) : list ascii := filter (fun c => negb (Ascii.eqb c "+"%char)) s.
(* a name without commas and line breaks *)
Definition plain (n : string) : Prop := forall c, In c (list_ascii_of_string n) -> c <> ","%char /\ c <> "010"%char /\ c <> "013"%char.
