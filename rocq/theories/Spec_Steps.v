(* Specification vocabulary: the motion of particles during a run. *)
From Coq Require Import Reals Qreals.
From Verif Require Import Lib Model_Geometry Model_Handlers Model_Cells Model_Sweep Model_Steps Spec_Cells Spec_Sweep.
Local Open Scope Q_scope.

(* The displacement of particle i along axis d from after a moves to after b moves. *)
Fixpoint travel (ms : nat -> list (list Q)) (i d a b : nat) : Q :=
  match b with
  | O => 0
  | S b' => if (a <=? b')%nat then travel ms i d a b' + nth d (nth i (ms b') []) 0 else 0
  end.
(* Its square length, in n dimensions. *)
Fixpoint sqr_length (n : nat) (x : nat -> Q) : Q := match n with O => 0 | S n' => sqr_length n' x + Qsqr (x n') end.

(* The same point of a periodic box, apart from whole widths along periodic axes. *)
Definition same_point (b : box) (x y : list Q) : Prop :=
  length x = length b /\ length y = length b /\
  forall d a, nth_error b d = Some a -> exists k : Z, nth d x 0 == nth d y 0 + inject_Z k * wd a /\ (bc a <> WRAP -> k = 0%Z).

(* Particles for which a search can be set up, none of them large. *)
Definition small_particles (b : box) (e : env) (n : nat) (ps : list particle) : Prop :=
  search_built b e /\ box_large_enough (min_small_cutoff e) b /\ stencil_range (min_small_cutoff e) b /\ 0 < skin e /\
  (forall p, In p ps -> 0 <= prd p /\ length (px p) = length b /\ (-1 <= ptype p < Z.of_nat n)%Z /\ sigma e p <= max_small_sigma e).
(* One displacement per particle and step. *)
Definition moves_for (b : box) (ps : list particle) (ms : nat -> list (list Q)) : Prop :=
  forall k, length (ms k) = length ps /\ forall m, In m (ms k) -> length m = length b.
(* The clock starts at 0; the time step does not grow. *)
Definition steady_clock (clock : nat -> Q) : Prop :=
  clock 0%nat == 0 /\ forall k, clock k < clock (S k) /\ clock (S (S k)) - clock (S k) <= clock (S k) - clock k.
(* No particle moves farther than l within a time of tau. *)
Definition slow (n : nat) (np : nat) (clock : nat -> Q) (ms : nat -> list (list Q)) (tau l : Q) : Prop :=
  forall a b i, (a <= b)%nat -> clock b - clock a <= tau -> (i < np)%nat -> sqr_length n (fun d => travel ms i d a b) <= Qsqr l.

(* The clock advances by dt in every step. *)
Definition even_clock (dt : Q) (clock : nat -> Q) : Prop := 0 < dt /\ forall k, clock k == inject_Z (Z.of_nat k) * dt.
(* Motion that does not speed up: what the fastest particle covers per step in j steps after a' moves is at most what the fastest particle
   covered per step in c steps after a moves, for a not later than a' and c not more than j. *)
Definition not_speeding_up (n np : nat) (ms : nat -> list (list Q)) : Prop :=
  forall a a' c j i, (a <= a')%nat -> (1 <= c <= j)%nat -> (i < np)%nat -> exists i', (i' < np)%nat /\
    Qsqr (inject_Z (Z.of_nat c)) * sqr_length n (fun d => travel ms i d a' (a' + j)) <=
    Qsqr (inject_Z (Z.of_nat j)) * sqr_length n (fun d => travel ms i' d a (a + c)).
(* No particle moves farther than l in a single step, or within a time of tau. *)
Definition short_steps (n np : nat) (clock : nat -> Q) (ms : nat -> list (list Q)) (tau l : Q) : Prop :=
  forall a b i, (a <= b)%nat -> (b <= S a)%nat \/ clock b - clock a <= tau -> (i < np)%nat -> sqr_length n (fun d => travel ms i d a b) <= Qsqr l.
