(* The containers of particle pairs (src/interactions/generic-handlers.hpp, src/base/interaction.cpp) and the table of
   interactions between particle types (src/base/forcemaster.cpp); paths under /repo/GFlowSim/src. None: access outside
   a vector. Particle ids are integers, lists 0 (plain), 1 (wrapped), 2 (with ghosts). *)
From Verif Require Import Lib.
Local Open Scope list_scope.

(* The calls a pair search makes. *)
Inductive call := AddPair (id1 id2 : Z) (list : nat) | Close | Clear.

Fixpoint put {A} (i : nat) (f : A -> A) (l : list A) : option (list A) :=
  match l, i with
  | [], _ => None
  | a :: l', O => Some (f a :: l')
  | a :: l', S i' => option_map (cons a) (put i' f l')
  end.

(* ---------- VerletList: generic-handlers.hpp 11-172 *)
Record vlist := mkVL { vl_first : list nat; vl_heads : list Z; vl_verlet : list Z; vl_last : Z }.
Record verlet_list := mkV { v_lists : list vlist; v_pairs : nat }.
(* constructor, 14-17; member initialisers 160-171 *)
Definition new_verlet : verlet_list := mkV (repeat (mkVL [] [] [] (-1)) 3) 0.
(* 22-31 *)
Definition vl_add (id1 id2 : Z) (v : vlist) : vlist :=
  let v1 := if (id1 =? vl_last v)%Z then v
            else mkVL (vl_first v ++ [length (vl_verlet v)]) (vl_heads v ++ [id1]) (vl_verlet v) id1 in
  mkVL (vl_first v1) (vl_heads v1) (vl_verlet v1 ++ [id2]) (vl_last v1).
(* 33-40 *)
Definition vl_close (v : vlist) : vlist := mkVL (vl_first v ++ [length (vl_verlet v)]) (vl_heads v) (vl_verlet v) (-1).
Definition verlet_call (c : call) (s : verlet_list) : option verlet_list :=
  match c with
  | AddPair a b l => option_map (fun ls => mkV ls (S (v_pairs s))) (put l (vl_add a b) (v_lists s))
  | Close => Some (mkV (map vl_close (v_lists s)) (v_pairs s))
  | Clear => Some new_verlet                                              (* 43-58 *)
  end.
(* 129-156: the double loop over the heads and their neighbours; the pairs in the order in which they are visited. *)
Fixpoint vl_neighbors (id1 : Z) (j n : nat) (verlet : list Z) : option (list (Z * Z)) :=
  match n with
  | O => Some []
  | S n' => match nth_error verlet j, vl_neighbors id1 (S j) n' verlet with
            | Some id2, Some r => Some ((id1, id2) :: r)
            | _, _ => None end
  end.
Fixpoint vl_loop (i : nat) (heads : list Z) (first : list nat) (verlet : list Z) : option (list (Z * Z)) :=
  match heads with
  | [] => Some []
  | id1 :: heads' =>
      match nth_error first i, nth_error first (S i) with
      | Some a, Some b => match vl_neighbors id1 a (b - a) verlet, vl_loop (S i) heads' first verlet with
                          | Some p, Some r => Some (p ++ r)
                          | _, _ => None end
      | _, _ => None
      end
  end.
(* 94-156: dolist; an empty list returns at once (98). *)
Definition vl_dolist (v : vlist) : option (list (Z * Z)) :=
  match vl_verlet v with [] => Some [] | _ => vl_loop 0 (vl_heads v) (vl_first v) (vl_verlet v) end.
Definition verlet_visit (l : nat) (s : verlet_list) : option (list (Z * Z)) :=
  match nth_error (v_lists s) l with Some v => vl_dolist v | None => None end.
(* 61-63 *)
Definition verlet_size (s : verlet_list) : nat := v_pairs s.

(* ---------- VerletListVecPairs: generic-handlers.hpp 176-263 with Interaction::addPair, clear, size
   (interaction.cpp 36-50); close does nothing (interaction.hpp) *)
Definition vec_pairs := list (list Z).
Definition new_vec : vec_pairs := repeat [] 3.
Definition vec_call (c : call) (s : vec_pairs) : option vec_pairs :=
  match c with
  | AddPair a b l => put l (fun v => v ++ [a; b]) s
  | Close => Some s
  | Clear => Some (map (fun _ => []) s)
  end.
(* 243-260: i += 2, verlet_list[i+1] *)
Fixpoint vec_loop (v : list Z) : option (list (Z * Z)) :=
  match v with
  | [] => Some []
  | [_] => None
  | a :: b :: v' => option_map (cons (a, b)) (vec_loop v')
  end.
Definition vec_visit (l : nat) (s : vec_pairs) : option (list (Z * Z)) :=
  match nth_error s l with Some v => vec_loop v | None => None end.
Definition vec_size (s : vec_pairs) : nat := (list_sum (map (@length Z) s) / 2)%nat.

(* ---------- VerletListPairs: generic-handlers.hpp 267-367 *)
Definition pair_lists := list (list (Z * Z)).
Definition new_pairs : pair_lists := repeat [] 3.
Definition pairs_call (c : call) (s : pair_lists) : option pair_lists :=
  match c with
  | AddPair a b l => put l (fun v => v ++ [(a, b)]) s
  | Close => Some s
  | Clear => Some (map (fun _ => []) s)
  end.
Definition pairs_visit (l : nat) (s : pair_lists) : option (list (Z * Z)) := nth_error s l.
Definition pairs_size (s : pair_lists) : nat := list_sum (map (@length (Z * Z)) s).

(* ---------- VerletListVector: generic-handlers.hpp 370-492. neighbor_list[i] are vectors of vectors that nothing
   resizes. *)
Definition neighbor_vectors := (list (list (list Z)) * nat)%type.
Definition new_vector : neighbor_vectors := (repeat [] 3, 0%nat).
Definition vector_call (c : call) (s : neighbor_vectors) : option neighbor_vectors :=
  match c with
  | AddPair a b l =>
      let lo := if (a <? b)%Z then a else b in
      let hi := if (a <? b)%Z then b else a in
      match nth_error (fst s) l with
      | None => None
      | Some v => if (lo <? 0)%Z then None else
                  match put (Z.to_nat lo) (fun n => n ++ [hi]) v with
                  | None => None
                  | Some v' => option_map (fun ls => (ls, S (snd s))) (put l (fun _ => v') (fst s))
                  end
      end
  | Close => Some s
  | Clear => Some (map (map (fun _ => [])) (fst s), 0%nat)
  end.

Section RUN.
Context {S : Type}.
Variable do : call -> S -> option S.
Fixpoint calls (cs : list call) (s : S) : option S :=
  match cs with [] => Some s | c :: cs' => match do c s with Some s1 => calls cs' s1 | None => None end end.
End RUN.

(* interact: 66-77 (and likewise in the other containers): lists 0 (without) and 1 (with wrapping); interact_ghosts:
   80-92: list 2. act wrapping id1 id2: computing the distance and calling the force. *)
Definition interact {S St} (visit : nat -> S -> option (list (Z * Z))) (act : bool -> Z -> Z -> St -> St) (s : S) (st : St) : option St :=
  match visit 0%nat s, visit 1%nat s with
  | Some p0, Some p1 =>
      Some (fold_left (fun st p => act true (fst p) (snd p) st) p1 (fold_left (fun st p => act false (fst p) (snd p) st) p0 st))
  | _, _ => None
  end.
Definition interact_ghosts {S St} (visit : nat -> S -> option (list (Z * Z))) (act : bool -> Z -> Z -> St -> St) (s : S) (st : St) : option St :=
  match visit 2%nat s with
  | Some p2 => Some (fold_left (fun st p => act true (fst p) (snd p) st) p2 st)
  | None => None
  end.

(* ------------------------------------------------------------------ ForceMaster *)
(* An interaction is identified by a number; null is None. *)
Record force_master := mkFM {
  fm_n : nat;                              (* ntypes *)
  fm_grid : list (list (option nat));
  fm_list : list nat;                      (* interactions *)
  fm_max : list Q;                         (* max_cutoffs *)
  fm_does : list bool;                     (* doesInteract *)
  fm_any : bool                            (* any_interactions *)
}.
(* forcemaster.cpp 123-134; interactions and any_interactions are kept. *)
Definition setNTypes (n : nat) (fm : force_master) : force_master :=
  mkFM n (repeat (repeat None n) n) (fm_list fm) (repeat 1 n) (repeat false n) (fm_any fm).
Definition new_fm (n : nat) : force_master := setNTypes n (mkFM 0 [] [] [] [] false).

Section FM.
Variable cutoff : nat -> Q.   (* Interaction::getCutoff *)

Definition set_grid (i j : nat) (it : option nat) (g : list (list (option nat))) : option (list (list (option nat))) :=
  match nth_error g i with
  | None => None
  | Some row => match put j (fun _ => it) row with None => None | Some row' => put i (fun _ => row') g end
  end.
Definition raise_max (t : nat) (c : Q) (m : list Q) : option (list Q) := put t (fun v => if Qltb v c then c else v) m.
(* 136-153 *)
Definition setInteraction (t1 t2 : nat) (it : option nat) (reflexive : bool) (fm : force_master) : option force_master :=
  match set_grid t1 t2 it (fm_grid fm) with
  | None => None
  | Some g1 =>
      match (if reflexive then set_grid t2 t1 it g1 else Some g1) with
      | None => None
      | Some g2 =>
          match it with
          | None => Some (mkFM (fm_n fm) g2 (fm_list fm) (fm_max fm) (fm_does fm) (fm_any fm))
          | Some i =>
              let l := if existsb (Nat.eqb i) (fm_list fm) then fm_list fm else fm_list fm ++ [i] in
              match raise_max t1 (cutoff i) (fm_max fm) with
              | None => None
              | Some m1 => match raise_max t2 (cutoff i) m1 with
                           | None => None
                           | Some m2 => Some (mkFM (fm_n fm) g2 l m2 (fm_does fm) (fm_any fm)) end
              end
          end
      end
  end.
(* 155-159 *)
Fixpoint set_pairs (it : option nat) (ps : list (nat * nat)) (fm : force_master) : option force_master :=
  match ps with
  | [] => Some fm
  | (i, j) :: ps' => match setInteraction i j it true fm with Some fm1 => set_pairs it ps' fm1 | None => None end
  end.
Definition setAll (it : option nat) (fm : force_master) : option force_master :=
  set_pairs it (flat_map (fun i => map (pair i) (seq i (fm_n fm - i))) (seq 0 (fm_n fm))) fm.
End FM.

(* 61-64 *)
Definition getInteraction (t1 t2 : Z) (fm : force_master) : option nat :=
  if (Z.of_nat (fm_n fm) <=? t1)%Z || (Z.of_nat (fm_n fm) <=? t2)%Z || (t1 <? 0)%Z || (t2 <? 0)%Z then None
  else match nth_error (fm_grid fm) (Z.to_nat t1) with
       | Some row => match nth_error row (Z.to_nat t2) with Some it => it | None => None end
       | None => None end.
(* 167-183: initialize_does_interact *)
Definition nonnull (it : option nat) : bool := match it with Some _ => true | None => false end.
Definition grid_at (g : list (list (option nat))) (i j : nat) : option nat :=
  match nth_error g i with Some row => match nth_error row j with Some it => it | None => None end | None => None end.
Definition mark_pair (g : list (list (option nat))) (does : list bool * bool) (ij : nat * nat) : list bool * bool :=
  let '(i, j) := ij in
  if nonnull (grid_at g i j)
  then let set t d := match put t (fun _ => true) d with Some d' => d' | None => d end in (set j (set i (fst does)), true)
  else does.
Definition initialize (fm : force_master) : force_master :=
  let ts := seq 0 (fm_n fm) in
  let '(does, any) := fold_left (mark_pair (fm_grid fm)) (list_prod ts ts) (map (fun _ => false) (fm_does fm), fm_any fm) in
  mkFM (fm_n fm) (fm_grid fm) (fm_list fm) (fm_max fm) does any.
(* The outcome of a query: a value, an exception, or an access outside a vector. *)
Inductive answer := Says (b : bool) | Throws | Outside.
(* 100-108 *)
Definition typeInteracts (t : Z) (fm : force_master) : answer :=
  if (t =? -1)%Z then Says false
  else if (t <? 0)%Z || (Z.of_nat (fm_n fm) <=? t)%Z then Throws
  else match nth_error (fm_does fm) (Z.to_nat t) with Some b => Says b | None => Outside end.
(* 110-118: note ntypes<type2 *)
Definition typesInteract (t1 t2 : Z) (fm : force_master) : answer :=
  if (t1 =? -1)%Z || (t2 =? -1)%Z then Says false
  else if (t1 <? 0)%Z || (Z.of_nat (fm_n fm) <=? t1)%Z || (t2 <? 0)%Z || (Z.of_nat (fm_n fm) <? t2)%Z then Throws
  else match nth_error (fm_grid fm) (Z.to_nat t1) with
       | None => Outside
       | Some row => match nth_error row (Z.to_nat t2) with Some it => Says (nonnull it) | None => Outside end end.
(* 75-77, 96-98 *)
Definition interactingTypes (fm : force_master) : bool := fm_any fm.
Definition getMaxCutoff (t : nat) (fm : force_master) : option Q := nth_error (fm_max fm) t.
