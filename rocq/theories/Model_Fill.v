(* Regions and filling of regions with particles: other/region.cpp, creators/fillareacreator.cpp, creators/particletemplate.cpp, utility/randomengines.hpp,
   creators/helperclasses/parse-constructor.cpp. Paths under /repo/GFlowSim/src. Exact rationals; random numbers are arbitrary streams. *)
From Verif Require Import Lib Model_Geometry.
Local Open Scope Q_scope.

(* other/region.hpp 43-120: a rectangular or a spherical region *)
Inductive region := Rect (b : bounds) | Ball (c : list Q) (r : Q).

(* drand48: rnd k is the k-th number drawn (arbitrary; drand48 gives numbers in [0, 1)) *)
Definition stream := nat -> Q.
(* utility/bounds.cpp 147-152 randomPoint; k: numbers drawn before *)
Fixpoint random_point (rnd : stream) (b : bounds) (k : nat) : list Q * nat :=
  match b with
  | [] => ([], k)
  | (mn, mx) :: b' => let x := rnd k * (mx - mn) + mn in let '(xs, k') := random_point rnd b' (S k) in (x :: xs, k')
  end.
(* region.cpp 72-77 SphericalRegion::contains *)
Fixpoint dist_sqr (x c : list Q) : Q := match x, c with xd :: x', cd :: c' => Qsqr (xd - cd) + dist_sqr x' c' | _, _ => 0 end.
Definition in_ball (c : list Q) (r : Q) (x : list Q) : bool := Qltb (dist_sqr x c) (Qsqr r).
(* region.cpp 17-19, 72-77 contains *)
Definition region_contains (g : region) (x : list Q) : bool := match g with Rect b => contains b x | Ball c r => in_ball c r x end.
(* region.cpp 25-27, 83-92 get_bounding_box *)
Definition bounding_box (g : region) : bounds := match g with Rect b => b | Ball c r => map (fun cd => (cd - r, cd + r)) c end.
(* region.cpp 65-69: the loop of SphericalRegion::pick_position; None: more than [fuel] attempts *)
Fixpoint pick_ball (fuel : nat) (rnd : stream) (c : list Q) (r : Q) (k : nat) : option (list Q * nat) :=
  match fuel with
  | O => None
  | S fuel' => let '(x, k') := random_point rnd (bounding_box (Ball c r)) k in if in_ball c r x then Some (x, k') else pick_ball fuel' rnd c r k'
  end.
(* region.cpp 13-15, 57-70 pick_position *)
Definition pick_position (fuel : nat) (rnd : stream) (g : region) (k : nat) : option (list Q * nat) :=
  match g with
  | Rect b => Some (random_point rnd b k)
  | Ball c r => if Qeq_bool r 0 then Some (map (fun _ => 0) c, k) else pick_ball fuel rnd c r k
  end.

(* a particle as made by a template: radius, inverse mass, type (particletemplate.cpp 54-73) and its initial velocity *)
Record made := mkMade { m_sg : Q; m_im : Q; m_type : Z; m_v : list Q }.
(* a particle given to the store: addParticle(X, V, sigma, im, type), with the id it gets *)
Record added := mkAdded { a_id : Z; a_x : list Q; a_v : list Q; a_sg : Q; a_im : Q; a_type : Z }.
(* creators/creator.hpp ParticleFixer: velocity to be given to the particle with this id later *)
Record fixer := mkFixer { fx_id : Z; fx_v : list Q }.

(* parameters of one call of createArea on one processor *)
Record job := mkJob {
  j_fuel : nat;                    (* bound on the attempts of one pick *)
  j_region : region;               (* after the intersection with the processor's bounds *)
  j_excluded : list region;
  j_make : nat -> made;            (* the N-th particle made, by whichever template is chosen *)
  j_vol : Q -> Q                   (* sphere_volume(radius, dimensions) *)
}.
(* fillareacreator.cpp 177-181 excluded_contains *)
Definition excluded_contains (j : job) (x : list Q) : bool := existsb (fun g => region_contains g x) (j_excluded j).

(* state of the loops: numbers drawn, N, vol, next global id, what was added and the fixers (latest last) *)
Record fstate := mkF { f_k : nat; f_n : nat; f_vol : Q; f_gid : Z; f_added : list added; f_fix : list fixer }.
(* 259-260, 303-304: velocity zero for immovable particles *)
Definition velocity (p : made) : list Q := if Qeq_bool (m_im p) 0 then map (fun _ => 0) (m_v p) else m_v p.

(* 239-275: one turn of the loop that fills to a density; SimData::getNextGlobalID, addParticle: ids grow by 1 *)
Definition density_step (rnd : stream) (j : job) (s : fstate) : option fstate :=
  match pick_position (j_fuel j) rnd (j_region j) (f_k s) with
  | None => None
  | Some (x, k') =>
      let p := j_make j (f_n s) in let v := velocity p in
      let s' := if excluded_contains j x then s
                else mkF (f_k s) (f_n s) (f_vol s) (f_gid s + 1) (f_added s ++ [mkAdded (f_gid s) x v (m_sg p) (m_im p) (m_type p)]) (f_fix s ++ [mkFixer (f_gid s) v]) in
      Some (mkF k' (S (f_n s)) (f_vol s + j_vol j (m_sg p)) (f_gid s') (f_added s') (f_fix s'))
  end.
(* 227-234 keep_adding: option 0 (Phi) or 1 (Rho); Vol = 0: x/0 is infinite or not a number, not smaller than phi *)
Definition keep_adding (rho : bool) (phi Vol : Q) (s : fstate) : bool :=
  if Qeq_bool Vol 0 then false else Qltb ((if rho then inject_Z (Z.of_nat (f_n s)) else f_vol s) / Vol) phi.
(* 236-275 the loop; None: no end within the fuel *)
Fixpoint fill_density (fuel : nat) (rnd : stream) (j : job) (rho : bool) (phi Vol : Q) (s : fstate) : option fstate :=
  if keep_adding rho phi Vol s then
    match fuel with
    | O => None
    | S fuel' => match density_step rnd j s with None => None | Some s' => fill_density fuel' rnd j rho phi Vol s' end
    end
  else Some s.

(* 290-294: a position outside of the excluded regions, at most 51 attempts; [left] = attempts that remain after this one *)
Fixpoint pick_allowed (left : nat) (rnd : stream) (j : job) (k : nat) : option (list Q * nat) :=
  match pick_position (j_fuel j) rnd (j_region j) k with
  | None => None
  | Some (x, k') => if excluded_contains j x then match left with O => Some (x, k') | S left' => pick_allowed left' rnd j k' end else Some (x, k')
  end.
(* 296-310: one particle of the number branch; the particle is added with the velocity V left from the one before (v0), the fixer holds its own *)
Definition number_step (rnd : stream) (j : job) (v0 : list Q) (s : fstate) : option (fstate * list Q) :=
  match pick_allowed 50 rnd j (f_k s) with
  | None => None
  | Some (x, k') =>
      let p := j_make j (f_n s) in let v := velocity p in
      Some (mkF k' (S (f_n s)) (f_vol s) (f_gid s + 1) (f_added s ++ [mkAdded (f_gid s) x v0 (m_sg p) (m_im p) (m_type p)]) (f_fix s ++ [mkFixer (f_gid s) v]), v)
  end.
(* 288-310: for (; N<num; ++N) *)
Fixpoint number_loop (turns : nat) (rnd : stream) (j : job) (v0 : list Q) (s : fstate) : option (fstate * list Q) :=
  match turns with
  | O => Some (s, v0)
  | S turns' => match number_step rnd j v0 s with None => None | Some (s', v) => number_loop turns' rnd j v s' end
  end.
(* 281-311: for every template (in the order of their names): its maker and the number asked for; N is not reset *)
Fixpoint fill_number (rnd : stream) (j : job) (wanted : list ((nat -> made) * nat)) (v0 : list Q) (s : fstate) : option (fstate * list Q) :=
  match wanted with
  | [] => Some (s, v0)
  | (mk, num) :: w' =>
      let j' := mkJob (j_fuel j) (j_region j) (j_excluded j) mk (j_vol j) in
      match number_loop (num - f_n s) rnd j' v0 s with None => None | Some (s', v) => fill_number rnd j w' v s' end
  end.
(* 187-190: the state before the loops *)
Definition start_state (gid : Z) : fstate := mkF 0 0 0 gid [] [].
(* 194-205: the region and the volume on a processor with bounds pb; region->vol() of a ball is a parameter *)
Definition local_region (pb : bounds) (g : region) : option region :=
  match g with Rect b => match intersection pb b with Some c => Some (Rect c) | None => None end | Ball c r => Some (Ball c r) end.
Definition local_volume (ball_vol : Q -> Q) (pb : bounds) (g : region) : option Q :=
  match g with Rect b => match intersection pb b with Some c => Some (vol c) | None => None end | Ball _ r => Some (ball_vol r) end.

(* ---------- templates: creators/particletemplate.cpp 54-73 createParticle; draws of the three engines are given *)
Inductive mass_kind := Infinite | Density | Mass.
Definition inverse_mass (sphere_vol : Q -> Q) (kind : mass_kind) (radius mass_draw : Q) : Q :=
  match kind with
  | Infinite => 0
  | Density => let m := sphere_vol radius * mass_draw in if Qltb 0 m then 1 / m else 0
  | Mass => if Qltb 0 mass_draw then 1 / mass_draw else 0
  end.
(* utility/randomengines.hpp 44-48 ProportionalRandomEngine::generate, x drawn from [0, 1) *)
Definition proportional (lower upper x : Q) : Q := 1 / (1 / lower + (1 / upper - 1 / lower) * (1 - x)).
(* parse-constructor.cpp 173-193: each entry "P: value, probability" *)
Definition discrete_engine (entries : list (Q * Q)) : list Q * list Q := (map fst entries, map fst entries). (* values, probabilities: both read argument 0 *)
(* std::discrete_distribution: the probability of the i-th value is its weight over the sum of the weights *)
Definition chance (weights : list Q) (i : nat) : Q := nth i weights 0 / Qsum weights.
(* parse-constructor.cpp 147-158 "Type: Equiprobable" *)
Definition equiprobable (ntypes : nat) : list Q * list Q := (map (fun i => inject_Z (Z.of_nat i)) (seq 0 ntypes), repeat (1 / inject_Z (Z.of_nat ntypes)) ntypes).
