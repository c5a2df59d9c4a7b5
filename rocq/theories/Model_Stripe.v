(* The stripe of a particle, an extra scalar kept with it: modifiers/stripe-x.{hpp,cpp} and the part of modifiers/stream-tunnel.cpp
   that sets it. Paths under /repo/GFlowSim/src. The store is that of Model_Store; e is the number of the scalar entry "StripeX", which
   SimData::requestScalarData (simdata.cpp 193-203) has registered. None: outside of an array. *)
From Verif Require Import Lib Model_Store.
Local Open Scope Z_scope.

(* st(i) = h *)
Definition put_stripe (e : nat) (h : num) (p : part) : part :=
  mkPart (p_type p) (p_gid p) (p_x p) (p_v p) (p_f p) (p_sg p) (p_im p) (p_evecs p) (firstn e (p_escals p) ++ h :: skipn (S e) (p_escals p)) (p_eints p).
(* x(i, 1) and st(i) exist (for one dimension, x(i, 1) is memory of the next particle: left out) *)
Definition has_stripe (e : nat) (p : part) : bool := (1 <? length (p_x p))%nat && (e <? length (p_escals p))%nat.
(* stripe-x.cpp 7-17 pre_integrate *)
Definition stripe_pre (e : nat) (s : store) : option store :=
  if forallb (has_stripe e) (firstn (st_size s) (st_mem s))
  then Some (set_mem (map_first (st_size s) (fun p => put_stripe e (nth 1 (p_x p) None) p) (st_mem s)) s) else None.
(* stripe-x.cpp 20-22 post_forces: do_updates is false from its definition (stripe-x.hpp 31) on, and nothing sets it *)
Definition stripe_post_forces (s : store) : store := s.
(* stream-tunnel.cpp 146-147: a particle is added, and stripex(id) = Xi[1] *)
Definition add_striped (e : nat) (x v : list num) (sg im : num) (t : Z) (s : store) : option store :=
  match addParticle x v sg im t s with
  | None => None
  | Some (id, s1) => if (1 <? length x)%nat && (e <? st_nes s)%nat then modify id (put_stripe e (nth 1 x None)) s1 else None
  end.
