(* Words for what is kept with a particle. *)
From Verif Require Import Lib Model_Store Spec_Store Model_Stripe.
Local Open Scope Z_scope.

(* the value that an extra scalar entry has for a particle (a new particle has 0) *)
Definition stripe_of (e : nat) (p : part) : num := nth e (p_escals p) (Some 0%Q).
(* the second coordinate *)
Definition height (p : part) : num := nth 1 (p_x p) None.
(* A log of the heights at which particles entered: an entry (a, b, h) says that those with ids from a to below b have the value h. *)
Definition entry := (Z * Z * num)%type.
Definition says (g : Z) (h : num) (en : entry) : Prop := fst (fst en) <= g < snd (fst en) /\ snd en = h.

(* The histories: a run begins (stripe_pre) with any particles there may be; then any allowed operations on the particles, steps of
   the modifier, particles added by the tunnel, and further runs. Particles added otherwise get 0. *)
Inductive striped (dims nev nes nei e : nat) : store -> list entry -> Prop :=
| st_start s0 s1 : reach_ids (empty_store dims nev nes nei) s0 -> stripe_pre e s0 = Some s1 ->
    striped dims nev nes nei e s1 (map (fun p => (p_gid p, p_gid p + 1, height p)) (particles s0))
| st_op s log o s' : striped dims nev nes nei e s log -> id_op o -> allowed s o -> step o s = Some s' ->
    striped dims nev nes nei e s' ((st_next s, st_next s', Some 0%Q) :: log)
| st_forces s log : striped dims nev nes nei e s log -> striped dims nev nes nei e (stripe_post_forces s) log
| st_tunnel s log x v sg im t s' : striped dims nev nes nei e s log -> 0 <= t -> add_striped e x v sg im t s = Some s' ->
    striped dims nev nes nei e s' ((st_next s, st_next s', nth 1 x None) :: log)
| st_again s log s' : striped dims nev nes nei e s log -> stripe_pre e s = Some s' ->
    striped dims nev nes nei e s' (map (fun p => (p_gid p, p_gid p + 1, height p)) (particles s)).
