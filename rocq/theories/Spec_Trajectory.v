(* Specification vocabulary: the motion that the forces of all pairs give. *)
From Coq Require Import Reals List Arith Bool.
From Verif Require Import Model_Forces Spec_Forces Model_Integrators Spec_Integrators Model_Trajectory.
Import ListNotations.
Local Open Scope R_scope.

(* A law: which force, its cutoff, and which pairs of particles it is for. *)
Record law := mkLaw { l_kind : kind; l_cut : R; l_for : nat -> nat -> bool }.
(* The force, component d, on particle i from particle j under the law, if these two are alone, at their nearest images. *)
Definition force_from (l : law) (e : env) (d i j : nat) : R :=
  match do_pair (l_kind l) (l_cut l) e true i j (mkF (fun _ _ => 0) (fun _ => 0) 0 0) with Some s => F s i d | None => 0 end.
(* The force on particle i from all others, under all laws. *)
Definition force_on (n : nat) (ls : list law) (e : env) (d i : nat) : R :=
  sum_over (fun l => sum_to n (fun j => if negb (j =? i)%nat && l_for l i j then force_from l e d i j else 0)) ls.

(* One step of the velocity-Verlet scheme with these forces, component by component (comp dims a i d is component d of particle i). *)
Definition ideal_step (w : world) (ls : list law) (dt : R) (wrap : arr -> arr) (st : sys) : sys :=
  let n := w_n w in let dims := w_dims w in
  let v1 := flat n dims (fun i d => comp dims (sv st) i d + 1 / 2 * dt * nth i (w_im w) 0 * comp dims (sf st) i d) in
  let x1 := wrap (flat n dims (fun i d => comp dims (sx st) i d + dt * comp dims v1 i d)) in
  let f1 := flat n dims (fun i d => force_on n ls (env_of w x1 v1) d i) in
  mkSys x1 (flat n dims (fun i d => comp dims v1 i d + 1 / 2 * dt * nth i (w_im w) 0 * comp dims f1 i d)) f1.
Fixpoint ideal_run (w : world) (ls : list law) (ts : list tick) (st : sys) : sys :=
  match ts with [] => st | t :: rest => ideal_run w ls rest (ideal_step w ls (k_dt t) (k_wrap t) st) end.

(* The lists of an interaction are those of its law, for particles at the places in e: only pairs of the law, none twice, all that are in range,
   and those that are not to be wrapped are nearest as they are. *)
Definition lists_right (n : nat) (e : env) (l : law) (it : inter) : Prop :=
  i_kind it = l_kind l /\ i_cut it = l_cut l /\
  (forall i j, In (i, j) (i_p0 it ++ i_p1 it) -> (i < n)%nat /\ (j < n)%nat /\ i <> j /\ l_for l i j = true /\ ~ In (j, i) (i_p0 it ++ i_p1 it)) /\
  NoDup (i_p0 it ++ i_p1 it) /\
  (forall i j, (i < n)%nat -> (j < n)%nat -> i <> j -> l_for l i j = true ->
     norm (e_dims e) (shift_of e true i j) < (e_sg e i + e_sg e j) * l_cut l -> In (i, j) (i_p0 it ++ i_p1 it) \/ In (j, i) (i_p0 it ++ i_p1 it)) /\
  (forall i j d, In (i, j) (i_p0 it) -> (d < e_dims e)%nat -> shift_of e true i j d = shift_of e false i j d).
(* In every step of the ideal motion the lists are right, wrapping keeps the number of coordinates, and no two particles are at the same place. *)
Fixpoint lists_right_along (w : world) (ls : list law) (ts : list tick) (st : sys) : Prop :=
  match ts with
  | [] => True
  | t :: rest =>
      let st1 := ideal_step w ls (k_dt t) (k_wrap t) st in
      let half := flat (w_n w) (w_dims w) (fun i d => comp (w_dims w) (sv st) i d + 1 / 2 * k_dt t * nth i (w_im w) 0 * comp (w_dims w) (sf st) i d) in
      let e := env_of w (sx st1) half in
      (forall x, length (k_wrap t x) = length x) /\ Forall2 (lists_right (w_n w) e) ls (k_inter t) /\
      (forall i j, (i < w_n w)%nat -> (j < w_n w)%nat -> i <> j -> 0 < norm (w_dims w) (shift_of e true i j)) /\
      lists_right_along w ls rest st1
  end.
(* A box with as many axes as dimensions and widths that are not negative; radii and laws. *)
Definition sound (w : world) (ls : list law) : Prop :=
  (0 < w_dims w)%nat /\ length (w_im w) = w_n w /\ (forall d, w_bc w d = true -> (d < w_dims w)%nat /\ 0 <= w_width w d) /\
  (forall i, 0 <= nth i (w_sg w) 0) /\ (forall l, In l ls -> 0 <= l_cut l /\ forall i j, l_for l i j = l_for l j i).
