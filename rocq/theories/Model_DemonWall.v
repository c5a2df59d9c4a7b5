(* The wall of Maxwell's demon: src/interactions/demon_wall.{hpp,cpp}. Paths under /repo/GFlowSim/src. Exact real arithmetic.
   Random numbers (drand48) are a list, consumed in order; free w X: handler->getAllWithin(X, ...) finds nothing (modelled in Model_Cells), any function here.
   None: a null pointer is used, or the random numbers given do not suffice (the loop has not ended). *)
From Coq Require Import Reals List Bool Arith ZArith Lia Lra.
From Verif Require Import Model_Forces Model_GroupMeasure.
Import ListNotations.
Local Open Scope R_scope.

(* What interact() reads besides the particle arrays: types, and the entry "Side" (None: nobody asked for it, getIntegerData is negative) *)
Record wall_data := mkWD { wd_type : nat -> Z; wd_side : option (nat -> Z); wd_rep : R }.
Definition with_x (x : nat -> vec) (w : world) : world := mkW (w_dims w) x (w_v w) (w_f w) (w_im w) (w_sg w) (w_lo w) (w_hi w) (w_bc w).
(* X[0], X[1] and the assignments x(id1, d) = X[d]; v(id1, 0) = -v(id1, 0) *)
Definition vec2 (a b : R) : vec := fun d => match d with O => a | S O => b | _ => 0 end.
Definition move_to (i : nat) (X : vec) (w : world) : world :=
  mkW (w_dims w) (fun j d => if ((j =? i) && (d <? 2))%nat then X d else w_x w j d)
      (fun j d => if ((j =? i) && (d =? 0))%nat then - w_v w j d else w_v w j d) (w_f w) (w_im w) (w_sg w) (w_lo w) (w_hi w) (w_bc w).
(* demon_wall.cpp 72-77 and 86-91: the place is drawn until nothing is near it; from: 0.025 or 0.525 *)
Fixpoint draw_place (free : world -> vec -> bool) (from : R) (w : world) (rs : list R) : option (vec * list R) :=
  match rs with
  | a :: b :: rest =>
      let X := vec2 (w_lo w 0%nat + from * w_width w 0%nat + a * (45 / 100) * w_width w 0%nat) (w_lo w 1%nat + b * w_width w 1%nat) in
      if free w X then Some (X, rest) else draw_place free from w rest
  | _ => None
  end.
(* demon_wall.cpp 40-115: one pair; the state is the particles, the random numbers, and the list moved *)
Definition wall_state := (world * list R * list nat)%type.
Definition wall_pair (free : world -> vec -> bool) (wd : wall_data) (turn_on : bool) (p : nat * nat) (st : wall_state) : option wall_state :=
  let '(w, rs, moved) := st in
  let (a, b) := p in
  if ((wd_type wd a <? 0) || (wd_type wd b <? 0))%Z then Some st else
  let (i, j) := if (wd_type wd b <? wd_type wd a)%Z then (b, a) else (a, b) in
  let X := correction (w_bc w) (w_width w) (vsub (w_x w i) (w_x w j)) in
  let rsqr := X 0%nat * X 0%nat + X 1%nat * X 1%nat in
  if Rlt_dec 0 rsqr then
    if Rlt_dec rsqr ((w_sg w i + w_sg w j) * (w_sg w i + w_sg w j)) then
      if turn_on then
        match wd_side wd with
        | None => None
        | Some side =>
            if Rlt_dec 0 (w_im w i) then
              if (side i =? 0)%Z then option_map (fun r => (move_to i (fst r) w, snd r, moved ++ [i])) (draw_place free (25 / 1000) w rs)
              else if (side i =? 1)%Z then option_map (fun r => (move_to i (fst r) w, snd r, moved ++ [i])) (draw_place free (525 / 1000) w rs)
              else Some st
            else Some st
        end
      else
        let r := sqrt rsqr in
        let n := vscale (1 / r) X in
        let m := wd_rep wd * (w_sg w i + w_sg w j - r) in
        Some (with_f (add_scaled 2 j n (- m) (add_scaled 2 i n m (w_f w))) w, rs, moved)
    else Some st
  else Some st.
Fixpoint wall_loop (free : world -> vec -> bool) (wd : wall_data) (turn_on : bool) (l : list (nat * nat)) (st : wall_state) : option wall_state :=
  match l with [] => Some st | p :: t => match wall_pair free wd turn_on p st with None => None | Some st1 => wall_loop free wd turn_on t st1 end end.
(* demon_wall.cpp 9-122 interact. l0, l1, l2: verlet[0], verlet[1] (pairs across borders), verlet[2] (ghosts) as pairs. Returns the state, whether the
   neighbour lists are to be built anew, and turn_on. *)
Definition interact (free : world -> vec -> bool) (wd : wall_data) (turn_on : bool) (l0 l1 l2 : list (nat * nat)) (w : world) (rs : list R)
  : option (wall_state * bool * bool) :=
  if negb (w_dims w =? 2)%nat then Some ((w, rs, []), false, turn_on) else
  match wall_loop free wd turn_on l0 (w, rs, []) with
  | None => None
  | Some (w', rs', moved) => Some ((w', rs', moved), turn_on && negb (match moved with [] => true | _ => false end), false)
  end.
(* demon_wall.cpp 124-126 turnOn *)
Definition turnOn (turn_on : bool) : bool := true.
