(* Specification vocabulary for the forces. *)
From Coq Require Import Reals Arith.
From Verif Require Import Model_Forces.
Local Open Scope R_scope.

Fixpoint sum_to (n : nat) (g : nat -> R) : R := match n with O => 0 | S m => sum_to m g + g m end.
(* The d-th component of the total of the forces f on the particles 0..n-1. *)
Definition total (n d : nat) (f : nat -> vec) : R := sum_to n (fun i => f i d).
(* f' is f with some force g added to particle i0 and subtracted from particle i1, and nothing else changed. *)
Definition opposite (dims i0 i1 : nat) (g : vec) (f f' : nat -> vec) : Prop :=
  forall i d, f' i d = f i d + (if (i =? i0)%nat then if (d <? dims)%nat then g d else 0 else 0)
                             - (if (i =? i1)%nat then if (d <? dims)%nat then g d else 0 else 0).
Definition norm (dims : nat) (x : vec) : R := sqrt (dot dims x x).
(* The displacement from particle j to particle i used for a pair. *)
Definition shift_of (e : env) (wrapping : bool) (i j : nat) : vec :=
  if wrapping then correction (e_bc e) (e_width e) (vsub (e_x e i) (e_x e j)) else vsub (e_x e i) (e_x e j).

(* The energy U R1 R2 r and the force Fm R1 R2 r (positive: repulsive) that the interaction k with this cutoff has for two
   particles of radii R1, R2 at distance r, as seen by whoever runs it on a pair of particles within range: the potential is
   increased by U and the two particles get opposite forces of size Fm along the line between them. *)
Definition describes (k : kind) (cutoff : R) (U Fm : R -> R -> R -> R) : Prop :=
  forall e w i j st, let X := shift_of e w i j in let r := norm (e_dims e) X in
    e_pot e = true -> 0 <= e_sg e i -> 0 <= e_sg e j -> 0 < r < (e_sg e i + e_sg e j) * cutoff ->
    exists st', do_pair k cutoff e w i j st = Some st' /\ pot st' = pot st + U (e_sg e i) (e_sg e j) r /\
      opposite (e_dims e) i j (vscale (Fm (e_sg e i) (e_sg e j) r) (vscale (1 / r) X)) (F st) (F st').

(* The Lennard-Jones, Coulomb and Buckingham objects a user can build. *)
Inductive lj_built : cut -> Prop :=
| LJ_new s : lj_built (lj_new s)
| LJ_cut c p : lj_built p -> lj_built (lj_setCutoff c p)
| LJ_parse s c p : lj_built p -> lj_built (lj_parse s c p).
Inductive coulomb_built : cut -> Prop :=
| CO_new s : coulomb_built (coulomb_new s)
| CO_cut c p : coulomb_built p -> coulomb_built (coulomb_setCutoff c p).
Inductive buckingham_built : cut -> Prop :=
| BU_new s : buckingham_built (buckingham_new s)
| BU_cut c p : buckingham_built p -> buckingham_built (buckingham_setCutoff c p).

(* What a list of pairs adds up to: the energy, and the d-th component of the force on particle a, when a pair of radii R1, R2 at
   distance r < (R1 + R2) * cutoff has energy U R1 R2 r and repulsive force Fm R1 R2 r, and other pairs have none. *)
Definition pair_energy (e : env) (w : bool) (cutoff : R) (U : R -> R -> R -> R) (p : nat * nat) : R :=
  let (i, j) := p in let r := norm (e_dims e) (shift_of e w i j) in
  if Rlt_dec r ((e_sg e i + e_sg e j) * cutoff) then U (e_sg e i) (e_sg e j) r else 0.
Definition pair_force (e : env) (w : bool) (cutoff : R) (Fm : R -> R -> R -> R) (a d : nat) (p : nat * nat) : R :=
  let (i, j) := p in let r := norm (e_dims e) (shift_of e w i j) in
  if Rlt_dec r ((e_sg e i + e_sg e j) * cutoff) then
    (if (a =? i)%nat then Fm (e_sg e i) (e_sg e j) r * (shift_of e w i j d / r) else 0) -
    (if (a =? j)%nat then Fm (e_sg e i) (e_sg e j) r * (shift_of e w i j d / r) else 0)
  else 0.
Definition sum_over {A} (g : A -> R) (l : list A) : R := List.fold_right (fun p s => g p + s) 0 l.
