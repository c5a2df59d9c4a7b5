(* Vocabulary for clusters (C64). *)
From Coq Require Import List ZArith.
Import ListNotations.

(* i and j are connected: a chain of slots, each near the one before it and, if asked for, of the same type *)
Inductive connected (same : bool) (types : list Z) (near : nat -> list nat) (i : nat) : nat -> Prop :=
| conn_refl : connected same types near i i
| conn_step j m : connected same types near i j -> In m (near j) -> (same = true -> nth_error types m = nth_error types j) -> connected same types near i m.
