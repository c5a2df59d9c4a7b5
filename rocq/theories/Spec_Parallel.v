(* Specification vocabulary: a simulation divided among processors. *)
From Coq Require Import Reals List Arith Bool ZArith Permutation.
From Verif Require Import Model_Forces Spec_Forces Model_Integrators Spec_Integrators Model_Trajectory Spec_Trajectory Model_Parallel.
Import ListNotations.
Local Open Scope R_scope.

(* Each of the n particles is on exactly one processor; positions and velocities on the processors are those of the whole system (x, v) ... *)
Definition divided (n dims : nat) (ps : list part) (x v : arr) : Prop :=
  Permutation (concat (map p_ids ps)) (seq 0 n) /\
  forall p, In p ps -> length (sx (p_sys p)) = (length (p_ids p) * dims)%nat /\ length (sv (p_sys p)) = (length (p_ids p) * dims)%nat /\
    forall k i d, nth_error (p_ids p) k = Some i -> (d < dims)%nat ->
      comp dims (sx (p_sys p)) k d = comp dims x i d /\ comp dims (sv (p_sys p)) k d = comp dims v i d.
(* ... and so are the forces. *)
Definition divides (n dims : nat) (ps : list part) (st : sys) : Prop :=
  divided n dims ps (sx st) (sv st) /\
  forall p, In p ps -> length (sf (p_sys p)) = (length (p_ids p) * dims)%nat /\
    forall k i d, nth_error (p_ids p) k = Some i -> (d < dims)%nat -> comp dims (sf (p_sys p)) k d = comp dims (sf st) i d.

(* Forces that depend on the velocities. *)
Definition reads_velocity (k : kind) : bool := match k with HardSphereDs _ _ | Hertz _ _ | Hooke _ _ _ _ => true | _ => false end.
Definition is_hooke (k : kind) : bool := match k with Hooke _ _ _ _ => true | _ => false end.

(* Two particles are within the range of the law (at their nearest images). *)
Definition in_range (l : law) (e : env) (i j : nat) : Prop := norm (e_dims e) (shift_of e true i j) < (e_sg e i + e_sg e j) * l_cut l.

(* The ghosts of a processor that has the particles p, where e describes the whole system: copies of different particles of other processors, among
   them all that are in range of its particles; at the place of the particle or, along a periodic axis, at one a multiple of the width away, not
   further than the width from any own particle; with the velocity of the particle, if a law reads it. *)
Definition ghosts_right (w : world) (ls : list law) (e : env) (p : part) (h : ghosts) : Prop :=
  let dims := w_dims w in
  length (h_x h) = (length (h_ids h) * dims)%nat /\ length (h_v h) = (length (h_ids h) * dims)%nat /\
  NoDup (h_ids h) /\ (forall i, In i (h_ids h) -> (i < w_n w)%nat /\ ~ In i (p_ids p)) /\
  (forall l i j, In l ls -> (i < w_n w)%nat -> ~ In i (p_ids p) -> In j (p_ids p) -> l_for l i j = true -> in_range l e i j -> In i (h_ids h)) /\
  (forall g i d, nth_error (h_ids h) g = Some i -> (d < dims)%nat ->
     (w_bc w d = false -> comp dims (h_x h) g d = e_x e i d) /\
     (w_bc w d = true -> (exists z : Z, comp dims (h_x h) g d = e_x e i d + IZR z * w_width w d) /\
        forall j, In j (p_ids p) -> Rabs (comp dims (h_x h) g d - e_x e j d) <= w_width w d) /\
     ((exists l, In l ls /\ reads_velocity (l_kind l) = true) -> comp dims (h_v h) g d = e_v e i d)).
(* The lists of an interaction on this processor: those of pairs of own particles as on one processor; that of ghosts and own particles has only pairs of
   the law, none twice, and all that are in range. *)
Definition own_law (l : law) (p : part) : law := mkLaw (l_kind l) (l_cut l) (fun a b => l_for l (nth a (p_ids p) 0%nat) (nth b (p_ids p) 0%nat)).
Definition lists_right_on (e : env) (p : part) (h : ghosts) (l : law) (g : ginter) (el : env) : Prop :=
  lists_right (length (p_ids p)) el (own_law l p) (g_own g) /\
  NoDup (g_pairs g) /\
  (forall a b, In (a, b) (g_pairs g) -> exists i j, nth_error (h_ids h) a = Some i /\ nth_error (p_ids p) b = Some j /\ l_for l i j = true) /\
  (forall a b i j, nth_error (h_ids h) a = Some i -> nth_error (p_ids p) b = Some j -> l_for l i j = true -> in_range l e i j -> In (a, b) (g_pairs g)).

(* In every step of the ideal motion: no two particles are at the same place; coordinates of particles along a periodic axis differ by no more than its
   width; and whatever happens between drift and forces to the particles of the whole system, divided as they are, wraps their positions as the ideal
   motion does, again divides the particles, and provides ghosts and lists that are right. wraps: what wrapping does to the whole system. own: which
   particles are on which processor. *)
Fixpoint exchange_right_along (w : world) (ls : list law) (ts : list ptick) (wraps : list (arr -> arr)) (own : list (list nat)) (st : sys) : Prop :=
  match ts, wraps with
  | t :: ts', wrap :: wraps' =>
      let dims := w_dims w in let n := w_n w in
      let st1 := ideal_step w ls (q_dt t) wrap st in
      let half := flat n dims (fun i d => comp dims (sv st) i d + 1 / 2 * q_dt t * nth i (w_im w) 0 * comp dims (sf st) i d) in
      let drifted := flat n dims (fun i d => comp dims (sx st) i d + q_dt t * comp dims half i d) in
      let e := env_of w (sx st1) half in
      length (sx st1) = (n * dims)%nat /\
      (forall i j, (i < n)%nat -> (j < n)%nat -> i <> j -> 0 < norm dims (shift_of e true i j)) /\
      (forall i j d, (i < n)%nat -> (j < n)%nat -> (d < dims)%nat -> w_bc w d = true -> Rabs (e_x e i d - e_x e j d) <= w_width w d) /\
      forall ps, map p_ids ps = own -> divided n dims ps drifted half ->
        let r := q_move t ps in
        divided n dims (map (fun q => fst (fst q)) r) (sx st1) half /\
        (forall p h gs, In (p, h, gs) r -> ghosts_right w ls e p h /\ Forall2 (fun l g => lists_right_on e p h l g (env_of (local_world w (p_ids p)) (sx (p_sys p)) (sv (p_sys p)))) ls gs) /\
        exchange_right_along w ls ts' wraps' (map (fun q => p_ids (fst (fst q))) r) st1
  | _, _ => True
  end.
(* The run of the ideal motion with these time steps and wrappings. *)
Fixpoint ideal_motion (w : world) (ls : list law) (dts : list R) (wraps : list (arr -> arr)) (st : sys) : sys :=
  match dts, wraps with
  | dt :: dts', wrap :: wraps' => ideal_motion w ls dts' wraps' (ideal_step w ls dt wrap st)
  | _, _ => st
  end.
(* Laws for several processors: not Hooke, and a range of at most half the width of the box along periodic axes. *)
Definition divisible (w : world) (ls : list law) : Prop :=
  forall l, In l ls -> is_hooke (l_kind l) = false /\
    forall i j d, (i < w_n w)%nat -> (j < w_n w)%nat -> (d < w_dims w)%nat -> w_bc w d = true -> (nth i (w_sg w) 0 + nth j (w_sg w) 0) * l_cut l <= w_width w d / 2.
