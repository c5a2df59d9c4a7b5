(* What a configuration file says, for C91 - C95. A heading line has a name, parameters (pairs: what is before and after =) and a body (Model_FileParse.node). *)
From Coq Require Import Ascii String.
From Verif Require Import Lib Spec_Eval Model_Eval Model_FileParse.
Local Open Scope list_scope.

Definition T (s : string) : text := list_ascii_of_string s.
(* the lines of the body of a heading with a given name, in the order of the file *)
Definition lines (name : string) (n : node) : list node :=
  match n with Head _ _ subs => filter (fun c => match c with Head h _ _ => if list_eq_dec ascii_dec h (T name) then true else false end) subs end.
(* the line has this first parameter *)
Definition says (n : node) (d : text * text) : Prop := match n with Head _ ps _ => exists rest, ps = d :: rest end.
(* the first word of a text *)
Definition white (c : ascii) : Prop := In c [" "; "009"; "010"; "011"; "012"; "013"]%char.
Definition starts_with_word (s w : text) : Prop :=
  w <> [] /\ exists b r, s = b ++ w ++ r /\ Forall white b /\ Forall (fun c => ~ white c) w /\ match r with [] => True | c :: _ => white c end.
(* what the command line (-name=value, in order) says about a name: the last one counts; nothing after = means 1 *)
Fixpoint on_command_line (cl : list (text * text)) (name : text) : option text :=
  match cl with
  | [] => None
  | (n, v) :: cl' => match on_command_line cl' name with
    | Some x => Some x
    | None => if list_eq_dec ascii_dec n name then Some (match v with [] => T "1" | _ => v end) else None end
  end.
(* the value of a declaration name = value: the first word from the command line, if there is one *)
Inductive settled (cl : list (text * text)) : text * text -> text -> Prop :=
| FromFile name value : on_command_line cl name = None -> settled cl (name, value) value
| FromLine name value w x : on_command_line cl name = Some w -> starts_with_word w x -> settled cl (name, value) x
| BlankLine name value w : on_command_line cl name = Some w -> Forall white w -> settled cl (name, value) value.
(* the value of a variable *)
Definition var_of (v : vars) (name : text) : option text :=
  match find (fun kv => if list_eq_dec ascii_dec (fst kv) name then true else false) v with Some (_, x) => Some x | None => None end.
(* v' is v with one more variable, unless there was one of the name *)
Definition adds (v : vars) (name value : text) (v' : vars) : Prop :=
  forall x, var_of v' x = match var_of v x with Some t => Some t | None => if list_eq_dec ascii_dec x name then Some value else None end.
(* the Value declarations, one after the other: each is an expression in the variables there are then *)
Inductive value_steps (number : text -> Q) (show : Q -> text) (cl : list (text * text)) : list (text * text) -> vars -> vars -> Prop :=
| VNil v : value_steps number show cl [] v v
| VCons d ds x q v v1 v' : settled cl d x -> x <> [] -> evaluate number v x = Gives q -> adds v (fst d) (show q) v1 ->
    value_steps number show cl ds v1 v' -> value_steps number show cl (d :: ds) v v'.
(* a name used as an integer or a flag: the variable's text, or itself *)
Definition meant (v : vars) (a : text) : text := match var_of v a with Some x => x | None => a end.
(* the text of the first parameter of the first line with a given name *)
Definition first_says (name : string) (n : node) (a : text) : Prop := a <> [] /\ exists l rest b, lines name n = l :: rest /\ says l (a, b).
(* there is no such line, or it has no parameter, or the empty one *)
Definition silent (name : string) (n : node) : Prop :=
  match lines name n with [] => True | Head _ ps _ :: _ => match ps with [] => True | (a, _) :: _ => a = [] end end.

(* the order of texts (by character codes), as std::string compares *)
Inductive before : text -> text -> Prop :=
| BNil c t : before [] (c :: t)
| BLt c d s t : (nat_of_ascii c < nat_of_ascii d)%nat -> before (c :: s) (d :: t)
| BEq c s t : before s t -> before (c :: s) (c :: t).

(* --- interactions --- *)
(* the name of an interaction may be a variable with a non-empty text *)
Definition interaction_name (v : vars) (t : text) : text := match var_of v t with Some (c :: x) => c :: x | _ => t end.
(* the interactions there are, in one to four dimensions; None: no interaction; DemonWall: only in two dimensions *)
Definition available (token : text) (dims : nat) : Prop :=
  In token [T "HardSphere"; T "HardSphereDs"; T "LennardJones"; T "Coulomb"; T "Buckingham"; T "Hertz"; T "Hooke"] /\ (1 <= dims <= 4)%nat \/ token = T "DemonWall" /\ dims = 2%nat.
(* a line  : type, type, name  of the table *)
Record entry := mkEntry { e_line : node; e_a : nat; e_b : nat; e_name : text }.
Definition reads (number : text -> Z) (v : vars) (n : node) (e : entry) : Prop :=
  e_line e = n /\ match n with Head _ ps _ => exists a xa b xb t xt, ps = [(a, xa); (b, xb); (t, xt)] /\
    number (meant v a) = Z.of_nat (e_a e) /\ number (meant v b) = Z.of_nat (e_b e) /\ interaction_name v t = e_name e end.
Definition sound_entry (ntypes : nat) (dims : nat) (e : entry) : Prop := (e_a e < ntypes)%nat /\ (e_b e < ntypes)%nat /\ (e_name e = T "None" \/ available (e_name e) dims).
(* a line that is not of this form: not three parameters, no such type, or no such interaction *)
Definition defective (number : text -> Z) (v : vars) (ntypes dims : nat) (n : node) : Prop :=
  match n with
  | Head _ [(a, _); (b, _); (t, _)] _ => ~ (0 <= number (meant v a) < Z.of_nat ntypes)%Z \/ ~ (0 <= number (meant v b) < Z.of_nat ntypes)%Z \/
      (interaction_name v t <> T "None" /\ ~ available (interaction_name v t) dims)
  | _ => True
  end.
(* the first line of the table with a name *)
Definition first_line (table : list entry) (name : text) : option node :=
  option_map e_line (find (fun e => if list_eq_dec ascii_dec (e_name e) name then true else false) table).
(* which of three: probabilities 0.333, 0.333 and 0.334 *)
Definition third (q : Q) (k : nat) : Prop := (k = 0%nat /\ q < 333 # 1000) \/ (k = 1%nat /\ 333 # 1000 <= q < 666 # 1000) \/ (k = 2%nat /\ 666 # 1000 <= q).

(* --- the box --- *)
(* a text with a value *)
Definition worth (number : text -> Q) (v : vars) (s : text) (q : Q) : Prop := evaluate number v s = Gives q.
(* what a Bounds line means *)
Inductive box_of (number : text -> Q) (v : vars) (dims : nat) (full : list (Q * Q)) : node -> list (Q * Q) -> Prop :=
| BoxFull h x ps : box_of number v dims full (Head h ((T "Full", x) :: ps) []) full
| BoxWidth h w q : worth number v w q -> box_of number v dims full (Head h [(T "Box", w)] []) (repeat (0, q) dims)
| BoxEach h ps subs b : (match ps with (a, _) :: _ => a <> T "Sphere" /\ a <> T "Box" /\ (subs = [] -> a <> T "Full") | [] => True end) -> length subs = dims ->
    Forall2 (fun l (i : Q * Q) => match l with Head _ [(mn, _); (mx, _)] [] => worth number v mn (fst i) /\ worth number v mx (snd i) | _ => False end) subs b ->
    box_of number v dims full (Head h ps subs) b
| BoxBall h x ps h1 cs s1 h2 r y rs s2 c q : length cs = dims -> Forall2 (fun p => worth number v (fst p)) cs c -> worth number v r q ->
    box_of number v dims full (Head h ((T "Sphere", x) :: ps) [Head h1 cs s1; Head h2 ((r, y) :: rs) s2]) (map (fun c => (c - q, c + q)) c).
(* the name of a boundary condition is the first parameter of a line (the empty text if there is none) *)
Definition first_text (n : node) : text := match n with Head _ ((a, _) :: _) _ => a | _ => [] end.

(* --- single particles --- *)
(* the numbers of the parameters of the first line with a name *)
Definition numbers (number : text -> Q) (v : vars) (name : string) (n : node) (xs : list Q) : Prop :=
  exists h ps subs rest, lines name n = Head h ps subs :: rest /\ ps <> [] /\ Forall2 (fun p => worth number v (fst p)) ps xs.
(* the inverse mass of a particle: 1 over the mass, the density times the volume, or (without a Mass line) the volume; 0 for an infinite mass *)
Inductive inverse_mass (number : text -> Q) (v : vars) (volume : Q) (n : node) : Q -> Prop :=
| MassUnit im : lines "Mass" n = [] -> im * volume == 1 -> inverse_mass number v volume n im
| MassInf l rest : lines "Mass" n = l :: rest -> first_text l = T "inf" -> inverse_mass number v volume n 0
| MassDensity l rest d q im : lines "Mass" n = l :: rest -> says l (T "Density", d) -> d <> [] -> worth number v d q -> im * (q * volume) == 1 -> inverse_mass number v volume n im
| MassPlain l rest a b q im : lines "Mass" n = l :: rest -> says l (a, b) -> a <> T "inf" -> a <> T "Density" -> worth number v (meant v a) q -> im * q == 1 -> inverse_mass number v volume n im.
(* a setting of the integrator: the number given, the default if there is none *)
Inductive set_to {A} (value : text -> A -> Prop) (name : string) (n : node) (default : A) : A -> Prop :=
| NotSet : silent name n -> set_to value name n default default
| Set_ a x : first_says name n a -> value a x -> set_to value name n default x.
