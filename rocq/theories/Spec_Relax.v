(* What C96 and C97 say about relaxed simulations *)
From Verif Require Import Lib Model_Store Model_Run Model_Relax.
Local Open Scope Z_scope.
(* all the forces are zero *)
Definition no_forces (s : store) : Prop := forall l p, (l < st_size s)%nat -> nth_error (st_mem s) l = Some p -> p_f p = repeat (Some 0%Q) (st_dims s).
(* no time has passed *)
Definition time_zero (t : gf) : Prop := g_req t = 0%Q /\ g_treq t = 0%Q /\ g_el t = 0%Q /\ g_tot t = 0%Q /\ g_iter t = 0%nat.
(* the last velocity given for an id *)
Definition last_given (fs : list (Z * list num)) (g : Z) (v : list num) : Prop := exists a b, fs = a ++ (g, v) :: b /\ forall w, ~ In (g, w) b.
(* p' is p but for the velocity *)
Definition same_but_v (p p' : part) : Prop := p_type p' = p_type p /\ p_gid p' = p_gid p /\ p_x p' = p_x p /\ p_f p' = p_f p /\ p_sg p' = p_sg p /\ p_im p' = p_im p /\
  p_evecs p' = p_evecs p /\ p_escals p' = p_escals p /\ p_eints p' = p_eints p.
