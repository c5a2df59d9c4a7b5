(* What C98 - C100 say about thermostats *)
From Coq Require Import Reals List.
From Verif Require Import Model_Integrators Spec_Integrators Model_Langevin.
Import ListNotations.
Local Open Scope R_scope.
(* the random force on a component of a particle of radius s, for a random number u between 0 and 1: more than 1/100 after the last one, and with a positive temperature only *)
Definition thermal (l : lang) (time s u : R) : R :=
  if Rlt_dec (l_delay l) (time - l_last l) then if Rlt_dec 0 (l_temp l) then sqrt (2 * (l_temp l / (6 * PI * l_visc l)) * (time - l_last l)) * sqrt (1 / s) * (u - 1 / 2) else 0 else 0.
(* the settings of a Langevin integrator: made, then set any number of times *)
Inductive usable : lang -> Prop :=
| UNew T vis : usable (new_lang T vis)
| UVisc eta l : usable l -> usable (setViscosity eta l)
| UTemp T l : usable l -> usable (setTemperature T l)
| UTime t l : usable l -> usable (mkLang (l_visc l) (l_temp l) (l_drift l) t (l_delay l)).
(* the arrays have the sizes of n particles; all radii are positive *)
Definition fits (n dims : nat) (im sg : arr) (st : sys) : Prop := (0 < dims)%nat /\ shaped n dims st /\ length im = n /\ length sg = n /\ Forall (fun s => 0 < s) sg.
Definition no_force (x : arr) : arr := map (fun _ => 0) x.
(* twice the kinetic energy: the sum over the components of m v^2 *)
Definition twice_ke (dims total : nat) (im v : arr) : R := fold_right Rplus 0 (map (fun k => nth k v 0 * nth k v 0 / nth (k / dims) im 0) (seq 0 total)).
