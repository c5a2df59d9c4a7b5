(* Building a simulation from a configuration file: creators/fileparsecreator.cpp, creators/helperclasses/parse-constructor.cpp,
   interactions/interaction-choice.cpp, utility/treeparser.cpp and .hpp, utility/printingutility.hpp. Paths under /repo/GFlowSim/src.
   The file is the tree read by Model_FileParse; looking up headings is represented by what C42 proves of the tree parser: begin(name) and
   next visit the headings of that name in the order of the file, find gives the first of them, begin() visits all of them sorted by name.
   conv is convert<float>, convz convert<int> (streams: any functions here), show is toStr. Numbers are exact rationals.
   Not modelled: messages, the seed, gravity, the parsing of areas and of modifiers other than those of single particles. *)
From Coq Require Import Ascii String.
From Verif Require Import Lib Model_Geometry Model_Eval Model_FileParse Model_TreeParser Model_Fill Model_Handlers.
Local Open Scope list_scope.

Definition kw (s : string) : text := list_ascii_of_string s.
(* how a part of the construction ends: undefined behaviour (memory outside of an array, an uninitialised number, a division by zero);
   an exception; a result *)
Inductive res (A : Type) := Crash | Throw | Ok (a : A).
Arguments Crash {A}. Arguments Throw {A}. Arguments Ok {A}.
Definition bind {A B} (r : res A) (f : A -> res B) : res B := match r with Crash => Crash | Throw => Throw | Ok a => f a end.
Notation "'do' x <- r ; k" := (bind r (fun x => k)) (at level 200, x pattern, r at level 100, k at level 200).
Fixpoint map_res {A B} (f : A -> res B) (l : list A) : res (list B) :=
  match l with [] => Ok [] | a :: l' => do b <- f a; do bs <- map_res f l'; Ok (b :: bs) end.

(* treeparser.cpp 303-325, 342-358: the nodes visited by begin(name) and next; the first of them: 107-117, 290-297, find *)
Definition heads (name : text) (n : node) : list node := filter (fun c => text_eqb (h_name c) name) (h_subs n).
Definition first_head (name : text) (n : node) : option node := hd_error (heads name n).
(* 327-340 begin() and next: all subheadings, sorted (stably) by heading, as a multimap is *)
Fixpoint insert_head (c : node) (l : list node) : list node :=
  match l with [] => [c] | d :: l' => if text_ltb (h_name c) (h_name d) then c :: l else d :: insert_head c l' end.
Definition sorted_heads (n : node) : list node := fold_left (fun l c => insert_head c l) (h_subs n) [].

(* evaluation.cpp 50-59; a division by zero (infinity or NaN in the code) counts as a crash *)
Definition ev (conv : text -> Q) (v : vars) (s : text) : res Q := match evaluate conv v s with Gives q => Ok q | _ => Crash end.
(* treeparser.hpp cast<int>: through a variable, if there is one of that name *)
Definition cast_int (convz : text -> Z) (v : vars) (s : text) : Z := match lookup v s with Some x => convz x | None => convz s end.
(* treeparser.cpp 9-23 arg<RealType> of argument 0: a variable's text is evaluated as an expression *)
Definition arg_real (conv : text -> Q) (v : vars) (n : node) : res Q :=
  match h_params n with [] => Crash | (a, _) :: _ => match lookup v a with Some x => ev conv v x | None => ev conv v a end end.
(* 61-68 val<RealType> of argument 0; Ok None: no value *)
Definition val_real (conv : text -> Q) (v : vars) (n : node) : res (option Q) :=
  match h_params n with [] => Crash | (_, []) :: _ => Ok None | (_, b) :: _ => do q <- ev conv v b; Ok (Some q) end.
(* 34-50 firstArg(name): the text of the first argument under the first heading of that name, if there is one that is not empty *)
Definition first_arg (name : text) (n : node) : option text :=
  match first_head name n with Some c => match h_params c with (a, _) :: _ => match a with [] => None | _ => Some a end | [] => None end | None => None end.
Definition firstArg_real (conv : text -> Q) (v : vars) (name : text) (n : node) : res (option Q) :=
  match first_arg name n with Some a => do q <- ev conv v a; Ok (Some q) | None => Ok None end.
Definition firstArg_int (convz : text -> Z) (v : vars) (name : text) (n : node) : option Z := option_map (cast_int convz v) (first_arg name n).
(* 164-169 argName(0) *)
Definition argName (n : node) : text := match h_params n with (a, _) :: _ => a | [] => [] end.
(* 205-222 firstArgVec(name, V): None: V is left alone *)
Definition firstArgVec (conv : text -> Q) (v : vars) (name : text) (n : node) : res (option (list Q)) :=
  match first_head name n with
  | Some c => match h_params c with [] => Ok None | ps => do l <- map_res (fun p : text * text => ev conv v (fst p)) ps; Ok (Some l) end
  | None => Ok None end.

(* ------------------------------------------------------------------ variables *)
(* fileparsecreator.cpp 116-125 setVariable *)
Fixpoint overwrite_var (v : vars) (name value : text) : vars :=
  match v with [] => [] | (k, x) :: v' => if text_eqb k name then (k, value) :: v' else (k, x) :: overwrite_var v' name value end.
Definition set_variable (v : vars) (name value : text) (overwrite : bool) : vars :=
  match lookup v name with None => v ++ [(name, value)] | Some _ => if overwrite then overwrite_var v name value else v end.
(* ArgParse.hpp 90-103 get<string>: the stream gives the first word; without one the variable is left alone *)
Definition blank (c : ascii) : bool := existsb (Ascii.eqb c) [" "%char; "009"%char; "010"%char; "011"%char; "012"%char; "013"%char].
Fixpoint word (s : text) : text := match s with [] => [] | c :: s' => if blank c then [] else c :: word s' end.
Fixpoint first_word (s : text) : text := match s with [] => [] | c :: s' => if blank c then first_word s' else word s end.
Definition cl_get (o : options) (name value : text) : text * options :=
  let (g, o') := arg_get name o in (match g with Some w => match first_word w with [] => value | x => x end | None => value end, o').
(* 184-197: the headings Var, in order *)
Fixpoint read_vars (l : list node) (o : options) (v : vars) : res (vars * options) :=
  match l with
  | [] => Ok (v, o)
  | n :: l' => match h_params n with
    | [] => Crash
    | (name, value) :: _ => let (value', o') := cl_get o name value in read_vars l' o' (set_variable v name value' false) end
  end.
(* 199-217: the headings Value *)
Fixpoint read_values (conv : text -> Q) (show : Q -> text) (l : list node) (o : options) (v : vars) : res (vars * options) :=
  match l with
  | [] => Ok (v, o)
  | n :: l' => match h_params n with
    | [] => Crash
    | (name, value) :: _ => let (value', o') := cl_get o name value in
      match value' with
      | [] => Throw
      | _ => do q <- ev conv v value'; read_values conv show l' o' (set_variable v name (show q) false)
      end
    end
  end.
Definition read_variables (conv : text -> Q) (show : Q -> text) (root : node) (o : options) (v : vars) : res (vars * options) :=
  do (v1, o1) <- read_vars (heads (kw "Var") root) o v; read_values conv show (heads (kw "Value") root) o1 v1.

(* ------------------------------------------------------------------ the box *)
(* 219-222 *)
Definition read_dimensions (convz : text -> Z) (v : vars) (root : node) : res Z :=
  let d := match firstArg_int convz v (kw "Dimensions") root with Some d => d | None => 2%Z end in if (d <=? 0)%Z then Throw else Ok d.
(* parse-constructor.cpp 7-68 parse_region; full: the bounds of the simulation *)
Definition parse_region (conv : text -> Q) (v : vars) (dims : nat) (full : bounds) (n : node) : res region :=
  let subs := h_subs n in
  let named := argName n in
  if (length subs =? 0)%nat && text_eqb named (kw "Full") then Ok (Rect full)
  else if text_eqb named (kw "Sphere") then
    match subs with
    | [c; r] =>
      if negb (length (h_params c) =? dims)%nat then Throw
      else do x <- map_res (fun p : text * text => ev conv v (fst p)) (h_params c);
           match h_params r with [] => Crash | (a, _) :: _ => do q <- ev conv v a; Ok (Ball x q) end
    | _ => Throw
    end
  else if text_eqb named (kw "Box") then
    if negb (length subs =? 0)%nat then Throw
    else match h_params n with
      | [(_, b)] => do w <- ev conv v b; Ok (Rect (repeat (0%Q, w) dims))
      | _ => Throw end
  else if negb (length subs =? dims)%nat then Throw
  else do b <- map_res (fun c : node =>
         match h_params c, h_subs c with
         | [(mn, _); (mx, _)], [] => do a <- ev conv v mn; do b <- ev conv v mx; Ok (a, b)
         | _, _ => Throw end) subs; Ok (Rect b).
(* 236-243 *)
Definition read_bounds (conv : text -> Q) (v : vars) (dims : nat) (full : bounds) (root : node) : res bounds :=
  match first_head (kw "Bounds") root with None => Throw | Some n => do g <- parse_region conv v dims full n; Ok (bounding_box g) end.
Inductive bc := WRAP | REFL | REPL | OPEN.
(* 471-477 choose_bc *)
Definition choose_bc (t : text) : res bc :=
  if text_eqb t (kw "Wrap") then Ok WRAP else if text_eqb t (kw "Reflect") then Ok REFL
  else if text_eqb t (kw "Repulse") then Ok REPL else if text_eqb t (kw "Open") then Ok OPEN else Throw.
(* 245-264 *)
Definition read_bcs (dims : nat) (root : node) : res (list bc) :=
  match first_head (kw "Boundary") root with
  | None => Ok (repeat WRAP dims)
  | Some n =>
    match argName n with
    | [] => if (length (h_subs n) =? dims)%nat then map_res (fun c => choose_bc (argName c)) (sorted_heads n) else Throw
    | t => do b <- choose_bc t; Ok (repeat b dims)
    end
  end.

(* ------------------------------------------------------------------ interactions *)
(* interaction-choice.cpp 7-74: whether an interaction is there for the name and the dimension; None: the null pointer *)
Definition generic : list text := map kw ["HardSphere"%string; "HardSphereDs"%string; "LennardJones"%string; "Coulomb"%string; "Buckingham"%string; "Hertz"%string; "Hooke"%string].
Definition choose (token : text) (dims : nat) : res bool :=
  if text_eqb token (kw "None") then Ok false
  else if existsb (text_eqb token) generic then if (1 <=? dims)%nat && (dims <=? 4)%nat then Ok true else Throw
  else if text_eqb token (kw "DemonWall") then if (dims =? 2)%nat then Ok true else Throw
  else Throw.
(* the interactions made so far: an interaction is the number of its place in the list; its name and the node its parameters are read from
   (parse-constructor.cpp 238-246 getInteraction, parse_construct in interactions/generic-forces.hpp) *)
Definition makes := list (text * node).
Definition get_interaction (token : text) (n : node) (dims : nat) (m : makes) : res (option nat * makes) :=
  do b <- choose token dims; if b then Ok (Some (length m), m ++ [(token, n)]) else Ok (None, m).
(* 295-297, 304-306, 320-322: the name may be a variable *)
Definition via_variable (v : vars) (s : text) : text := match lookup v s with Some (c :: t) => c :: t | _ => s end.
(* 311-338 the table; seen: the map of interactions by name *)
Fixpoint find_token (t : text) (seen : list (text * option nat)) : option (option nat) :=
  match seen with [] => None | (k, i) :: s => if text_eqb k t then Some i else find_token t s end.
Definition set_pair (cutoff : nat -> Q) (a b : Z) (it : option nat) (fm : force_master) : res force_master :=
  match setInteraction cutoff (Z.to_nat a) (Z.to_nat b) it true fm with Some fm' => Ok fm' | None => Crash end.
Fixpoint read_grid (cutoff : nat -> Q) (convz : text -> Z) (v : vars) (dims : nat) (ntypes : Z) (lines : list node)
    (seen : list (text * option nat)) (m : makes) (fm : force_master) : res (makes * force_master) :=
  match lines with
  | [] => Ok (m, fm)
  | n :: lines' =>
    match h_params n with
    | [(a, _); (b, _); (t, _)] =>
      let token := via_variable v t in
      let t1 := cast_int convz v a in
      let t2 := cast_int convz v b in
      if (t1 <? 0)%Z || (t2 <? 0)%Z || (ntypes <=? t1)%Z || (ntypes <=? t2)%Z then Throw
      else match find_token token seen with
        | Some it => do fm' <- set_pair cutoff t1 t2 it fm; read_grid cutoff convz v dims ntypes lines' seen m fm'
        | None => do (it, m') <- get_interaction token n dims m;
                  do fm' <- set_pair cutoff t1 t2 it fm; read_grid cutoff convz v dims ntypes lines' ((token, it) :: seen) m' fm'
        end
    | _ => Throw
    end
  end.
(* 563-584 makeRandomForces: numbers 0, 1, 2 are a hard sphere, a Lennard-Jones and a Coulomb interaction; rnd: the numbers drawn *)
Definition random_choice (q : Q) : nat := if Qltb q (333 # 1000) then 0%nat else if Qltb q (666 # 1000) then 1%nat else 2%nat.
Fixpoint set_random (cutoff : nat -> Q) (rnd : nat -> Q) (k : nat) (ps : list (nat * nat)) (fm : force_master) : res force_master :=
  match ps with
  | [] => Ok fm
  | (i, j) :: ps' => do fm' <- set_pair cutoff (Z.of_nat i) (Z.of_nat j) (Some (random_choice (rnd k))) fm; set_random cutoff rnd (S k) ps' fm'
  end.
Definition random_pairs (n : nat) : list (nat * nat) := flat_map (fun i => map (pair i) (seq i (n - i))) (seq 0 n).
Definition set_all (cutoff : nat -> Q) (it : option nat) (fm : force_master) : res force_master := match setAll cutoff it fm with Some fm' => Ok fm' | None => Crash end.
(* 282-285 *)
Definition read_ntypes (convz : text -> Z) (v : vars) (root : node) : Z := match firstArg_int convz v (kw "NTypes") root with Some n => n | None => 1%Z end.
(* 282-341; a negative number of types: std::length_error *)
Definition read_interactions (cutoff : nat -> Q) (convz : text -> Z) (v : vars) (dims : nat) (ntypes : Z) (rnd : nat -> Q) (root : node) : res (makes * force_master) :=
  let fm := new_fm (Z.to_nat ntypes) in
  if (ntypes <? 0)%Z then Throw else
  match first_head (kw "Force-grid") root with
  | None => Throw
  | Some n =>
    let one := do (it, m) <- get_interaction (via_variable v (argName n)) n dims []; do fm' <- set_all cutoff it fm; Ok (m, fm') in
    if (length (h_subs n) =? 0)%nat then
      if text_eqb (argName n) (kw "Random") then
        do (_, m1) <- get_interaction (kw "HardSphere") (Head [] [] []) dims [];
        do (_, m2) <- get_interaction (kw "LennardJones") (Head [] [] []) dims m1;
        do (_, m3) <- get_interaction (kw "Coulomb") (Head [] [] []) dims m2;
        do fm' <- set_random cutoff rnd 0 (random_pairs (Z.to_nat ntypes)) fm; Ok (m3, fm')
      else one
    else if (length (h_params n) =? 1)%nat then one
    else read_grid cutoff convz v dims ntypes (sorted_heads n) [] [] fm
  end.

(* ------------------------------------------------------------------ single particles *)
(* the modifiers given to a single particle: constant velocity; constant velocity for a distance *)
Inductive pmod := CV (id : Z) (v : list Q) | CVD (id : Z) (v : list Q) (distance : Q).
Record newp := mkNew { n_x : list Q; n_v : list Q; n_sg : Q; n_im : Q; n_type : Z }.
Definition inverse (q : Q) : res Q := if Qeq_bool q 0 then Crash else Ok (1 / q)%Q.
(* 520-537 *)
Definition read_mass (conv : text -> Q) (v : vars) (volume : Q -> Q) (sigma : Q) (n : node) : res Q :=
  match first_head (kw "Mass") n with
  | None => inverse (volume sigma)
  | Some c =>
    if text_eqb (argName c) (kw "inf") then Ok 0%Q
    else if text_eqb (argName c) (kw "Density") then
      do d <- val_real conv v c; match d with Some d => inverse (d * volume sigma)%Q | None => Throw end
    else do d <- arg_real conv v c; inverse d
  end.
(* 539-558; CV-D reads its distance from argument 0, which is the name CV-D *)
Definition read_pmod (conv : text -> Q) (v : vars) (gid : Z) (vel : list Q) (n : node) : res pmod :=
  if text_eqb (argName n) (kw "CV") then Ok (CV gid vel)
  else if text_eqb (argName n) (kw "CV-D") then do d <- arg_real conv v n; Ok (CVD gid vel d)
  else Throw.
(* the first dims components; memory outside of a shorter vector is read *)
Definition take_vec (dims : nat) (l : list Q) : res (list Q) := if (length l <? dims)%nat then Crash else Ok (firstn dims l).
(* 496-562 createParticle; gid: the global id it will get *)
Definition create_particle (conv : text -> Q) (convz : text -> Z) (v : vars) (volume : Q -> Q) (dims : nat) (gid : Z) (n : node) : res (newp * list pmod) :=
  if existsb (fun h => match heads h n with [] => true | _ => false end) [kw "Position"; kw "Velocity"; kw "Sigma"] then Throw
  else
    do x <- firstArgVec conv v (kw "Position") n;
    do w <- firstArgVec conv v (kw "Velocity") n;
    do sg <- firstArg_real conv v (kw "Sigma") n;
    match sg with
    | None => Crash
    | Some sigma =>
      let ty := match firstArg_int convz v (kw "Type") n with Some t => t | None => 0%Z end in
      do im <- read_mass conv v volume sigma n;
      do x' <- take_vec dims (match x with Some l => l | None => repeat 0%Q dims end);
      do w' <- take_vec dims (match w with Some l => l | None => repeat 0%Q dims end);
      do ms <- map_res (read_pmod conv v gid w') (heads (kw "Modifier") n);
      Ok (mkNew x' w' sigma im ty, ms)
    end.

(* ------------------------------------------------------------------ integrators *)
Inductive ikind := VelocityVerlet | Overdamped | OverdampedLangevin | Langevin | NoseHoover.
(* base/integrator.hpp: the settings; temperature and viscosity of the Langevin integrators *)
Record integ := mkInteg { g_kind : ikind; g_temp : option Q; g_visc : option Q; g_delay : Z; g_maxdt : Q; g_mindt : Q; g_adjust : bool; g_usev : bool; g_usea : bool; g_dt : Q }.
(* base/integrator.hpp 80-110 *)
Definition new_integ (k : ikind) : integ := mkInteg k None None 10 (2 # 1000) (1 # 1000000) true true false (1 # 10000).
Definition langevin (k : ikind) : bool := match k with OverdampedLangevin | Langevin => true | _ => false end.
Definition choose_kind (t : text) (dims : nat) : res ikind :=
  let small := (1 <=? dims)%nat && (dims <=? 4)%nat in
  if text_eqb t (kw "VelocityVerlet") then if small then Ok VelocityVerlet else Throw
  else if text_eqb t (kw "OverdampedIntegrator") then if small then Ok Overdamped else Throw
  else if text_eqb t (kw "OverdampedLangevin") then Ok OverdampedLangevin
  else if text_eqb t (kw "LangevinIntegrator") then Ok Langevin
  else if text_eqb t (kw "NoseHooverVelocityVerlet") then if small then Ok NoseHoover else Throw
  else Throw.
(* 417-463 choose_integrator; convb: convert<bool>. setStepDelay: base/integrator.cpp 90-92, setMaxDT, setMinDT 94-100 *)
Definition cast_bool (convb : text -> bool) (v : vars) (s : text) : bool := match lookup v s with Some x => convb x | None => convb s end.
Definition choose_integrator (conv : text -> Q) (convz : text -> Z) (convb : text -> bool) (v : vars) (dims : nat) (n : node) : res integ :=
  do k <- choose_kind (argName n) dims;
  do temp <- (if langevin k then firstArg_real conv v (kw "Temperature") n else Ok None);
  do visc <- (if langevin k then firstArg_real conv v (kw "Viscosity") n else Ok None);
  do mx <- firstArg_real conv v (kw "MaxDT") n;
  do mn <- firstArg_real conv v (kw "MinDT") n;
  let d := new_integ k in
  let flag name dflt := match first_arg (kw name) n with Some a => cast_bool convb v a | None => dflt end in
  Ok (mkInteg k temp visc
        (match firstArg_int convz v (kw "Number") n with Some z => Z.max 0 z | None => g_delay d end)
        (match mx with Some q => if Qltb 0 q then q else g_maxdt d | None => g_maxdt d end)
        (match mn with Some q => if Qltb 0 q then q else g_mindt d | None => g_mindt d end)
        (flag "Adjust"%string (g_adjust d)) (flag "UseV"%string (g_usev d)) (flag "UseA"%string (g_usea d)) (g_dt d)).
(* 274-280 *)
Definition read_integrator (conv : text -> Q) (convz : text -> Z) (convb : text -> bool) (v : vars) (dims : nat) (root : node) : res integ :=
  match first_head (kw "Integrator") root with
  | Some n => choose_integrator conv convz convb v dims n
  | None => if (1 <=? dims)%nat && (dims <=? 4)%nat then Ok (new_integ VelocityVerlet) else Throw
  end.
(* applications/driver.cpp 396-410 (dt = 0.001, maxDT = -1, adjustDT = true, step_delay = -1 unless given on the command line) *)
Definition driver_settings (dt maxdt : Q) (adjust : bool) (delay : Z) (i : integ) : integ :=
  mkInteg (g_kind i) (g_temp i) (g_visc i) (if (0 <? delay)%Z then delay else g_delay i) (if Qltb 0 maxdt then maxdt else g_maxdt i) (g_mindt i) adjust (g_usev i) (g_usea i) dt.
