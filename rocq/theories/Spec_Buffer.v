(* Specification vocabulary for the buffers (C07, C08) and the registration of data entries (C10). *)
From Coq Require Import String.
From Verif Require Import Lib Model_Geometry Model_Store Model_Buffer Spec_Store.
Local Open Scope Z_scope.
Local Open Scope list_scope.

(* A particle record that has all entries registered with the store s, in its number of dimensions. *)
Definition shaped (s : store) (p : part) : Prop :=
  List.length (p_x p) = st_dims s /\ List.length (p_v p) = st_dims s /\ List.length (p_f p) = st_dims s /\
  List.length (p_evecs p) = st_nev s /\ (forall v, In v (p_evecs p) -> List.length v = st_dims s) /\
  List.length (p_escals p) = st_nes s /\ List.length (p_eints p) = st_nei s.
(* Two stores with the same dimensions and the same registered entries. *)
Definition same_layout (s r : store) : Prop :=
  st_dims s = st_dims r /\ st_nev s = st_nev r /\ st_nes s = st_nes r /\ st_nei s = st_nei r.
(* ps are the records of s at the local ids ids. *)
Definition records (s : store) (ids : list nat) (ps : list part) : Prop :=
  Forall2 (fun id p => at_ s id p) ids ps.

(* y is x moved by whole box widths along the periodic axes (NaN stays NaN). *)
Definition image_component (a : axis) (x y : num) : Prop :=
  match x, y with
  | Some q, Some r => exists k, (r == q + inject_Z k * (if bc_eqb (bc a) WRAP then wd a else 0))%Q
  | None, None => True
  | _, _ => False
  end.
(* ... and no image of x is closer to c along this axis. *)
Definition closest_component (a : axis) (c : Q) (x y : num) : Prop :=
  match x, y with
  | Some q, Some r => bc a = WRAP -> forall k, (Qabs (r - c) <= Qabs (q + inject_Z k * wd a - c))%Q
  | _, _ => True
  end.

(* Requests made one after the other; the handles returned. *)
Fixpoint requests (names : list string) (r : registry) : list nat * registry :=
  match names with
  | [] => ([], r)
  | n :: names' => let '(h, r1) := request n r in let '(hs, r2) := requests names' r1 in (h :: hs, r2)
  end.
