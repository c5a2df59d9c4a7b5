(* Walking over a parsed configuration file and the command line (src/utility/treeparser.cpp, treeparser.hpp, ArgParse.hpp); paths under
   /repo/GFlowSim/src. A HeadNode pointer is the list of child indices leading to the node from the root of the file (None: nullptr).
   Conversions of texts to numbers are not modelled here (Model_Eval models the expressions). *)
From Coq Require Import List Bool Ascii Arith Lia ZArith.
From Verif Require Import Model_Eval Model_FileParse.
Import ListNotations.
Local Open Scope char_scope.

Definition h_name (n : node) : text := match n with Head h _ _ => h end.
Definition h_params (n : node) : list (text * text) := match n with Head _ p _ => p end.
Definition h_subs (n : node) : list node := match n with Head _ _ s => s end.
Fixpoint node_at (root : node) (path : list nat) : option node :=
  match path with [] => Some root | i :: p => match nth_error (h_subs root) i with Some n => node_at n p | None => None end end.

(* operator< of std::string *)
Fixpoint text_ltb (a b : text) : bool :=
  match a, b with
  | _, [] => false
  | [], _ :: _ => true
  | x :: a', y :: b' => (nat_of_ascii x <? nat_of_ascii y)%nat || ((nat_of_ascii x =? nat_of_ascii y)%nat && text_ltb a' b')
  end.
(* std::multimap<string, HeadNode*>: sorted by key; an insertion goes after the equal keys *)
Definition multimap := list (text * list nat).
Fixpoint mm_insert (k : text) (v : list nat) (m : multimap) : multimap :=
  match m with [] => [(k, v)] | (k', v') :: m' => if text_ltb k k' then (k, v) :: m else (k', v') :: mm_insert k v m' end.
(* the elements from lower_bound on; find in libstdc++ is lower_bound followed by a comparison *)
Fixpoint mm_lower (name : text) (m : multimap) : multimap :=
  match m with [] => [] | (k, v) :: m' => if text_ltb k name then mm_lower name m' else m end.
Definition mm_find (name : text) (m : multimap) : multimap :=
  match mm_lower name m with (k, v) :: m' => if text_eqb k name then (k, v) :: m' else [] | [] => [] end.

Record tparser := mkT { t_root : node; t_focus : option (list nat); t_headings : multimap; t_list : list (list nat); t_mark : option (list nat); t_point : Z }.
(* treeparser.cpp 276-284 sortOptions *)
Definition t_children (root : node) (f : option (list nat)) : list (text * list nat) :=
  match f with
  | None => []
  | Some p => match node_at root p with
    | None => []
    | Some n => map (fun i => (match nth_error (h_subs n) i with Some c => h_name c | None => [] end, p ++ [i])) (seq 0 (List.length (h_subs n)))
    end
  end.
Definition sortOptions (t : tparser) : tparser :=
  mkT (t_root t) (t_focus t) (fold_left (fun (m : multimap) c => mm_insert (fst c) (snd c) m) (t_children (t_root t) (t_focus t)) []) (t_list t) (t_mark t) (t_point t).
Definition set_focus (f : option (list nat)) (t : tparser) : tparser := sortOptions (mkT (t_root t) f (t_headings t) (t_list t) (t_mark t) (t_point t)).
(* 78-80 the constructor *)
Definition t_new (root : node) : tparser := sortOptions (mkT root (Some []) [] [] None (-1)).
(* 107-117 focus *)
Definition t_focus_on (name : text) (t : tparser) : bool * tparser :=
  match mm_find name (t_headings t) with [] => (false, t) | (_, p) :: _ => (true, set_focus (Some p) t) end.
(* 119-126 focus0 *)
Definition t_focus0 (name : text) (t : tparser) : bool * tparser := t_focus_on name (set_focus (Some []) t).
(* 128-139 up. None: nullptr dereferenced *)
Definition t_up (t : tparser) : option (bool * tparser) :=
  match t_focus t with
  | None => None
  | Some [] => Some (false, t)
  | Some p => Some (true, set_focus (Some (removelast p)) t)
  end.
(* 290-297 getNode by name *)
Definition t_getNode (name : text) (t : tparser) : option (list nat) := match mm_find name (t_headings t) with [] => None | (_, p) :: _ => Some p end.
(* 313-316 *)
Fixpoint take_eq (name : text) (m : multimap) : list (list nat) :=
  match m with (k, p) :: m' => if text_eqb k name then p :: take_eq name m' else [] | [] => [] end.
(* 303-325 begin with a name *)
Definition t_begin (name : text) (t : tparser) : bool * tparser :=
  if negb (t_point t =? -1)%Z then (false, t)
  else match mm_find name (t_headings t) with
  | [] => (false, t)
  | m => let l := t_list t ++ take_eq name m in (true, set_focus (nth_error l 0) (mkT (t_root t) (t_focus t) (t_headings t) l (t_focus t) 0))
  end.
(* 327-340 begin without a name. None: head_list[0] of an empty list *)
Definition t_begin_all (t : tparser) : option (bool * tparser) :=
  if negb (t_point t =? -1)%Z then Some (false, t)
  else let l := t_list t ++ map snd (t_headings t) in
    match l with
    | [] => None
    | p :: _ => Some (true, set_focus (Some p) (mkT (t_root t) (t_focus t) (t_headings t) l (t_focus t) 0))
    end.
(* 360-372 end *)
Definition t_end (t : tparser) : tparser :=
  if (t_point t =? -1)%Z then t
  else let t' := set_focus (t_mark t) t in mkT (t_root t') (t_focus t') (t_headings t') [] None (-1).
(* 342-358 next. point is an int compared with a size_t: it is not negative after the increment *)
Definition t_next (t : tparser) : bool * tparser :=
  let t1 := mkT (t_root t) (t_focus t) (t_headings t) (t_list t) (t_mark t) (t_point t + 1) in
  if (Z.of_nat (List.length (t_list t)) <=? t_point t1)%Z then (false, t_end t1)
  else (true, set_focus (nth_error (t_list t) (Z.to_nat (t_point t1))) t1).
(* 246-274 check: true if the exception MissingHeading is thrown; the unknown headings are only printed *)
Definition mm_has (name : text) (m : multimap) : bool := match mm_find name m with [] => false | _ => true end.
Definition t_check (necessary optional : list text) (t : tparser) : bool * list text :=
  (existsb (fun n => negb (mm_has n (t_headings t))) necessary,
   map fst (filter (fun h : text * list nat => negb (existsb (text_eqb (fst h)) necessary) && negb (existsb (text_eqb (fst h)) optional)) (t_headings t))).
(* Access to parameter i of the focus node. i is an int; compared with a size_t it becomes unsigned (64 bits).
   Bad: memory outside of the vector is read *)
Inductive access := Absent | Bad | Found (p : text * text).
Definition unsigned (i : Z) : Z := if (i <? 0)%Z then (i + 2 ^ 64)%Z else i.
Definition read_at (ps : list (text * text)) (i : Z) : access := match nth_error ps (Z.to_nat i) with Some p => if (i <? 0)%Z then Bad else Found p | None => Bad end.
(* 164-169 argName *)
Definition acc_argName (ps : list (text * text)) (i : Z) : access :=
  if (-1 <? i)%Z && (unsigned i <? Z.of_nat (List.length ps))%Z then read_at ps i else Absent.
(* 11, 27, 62, 199, 236 and treeparser.hpp: arg, arg_cast, val, valName, argvalName *)
Definition acc_other (ps : list (text * text)) (i : Z) : access :=
  if (-1 <? i)%Z || (unsigned i <? Z.of_nat (List.length ps))%Z then read_at ps i else Absent.

(* --- ArgParse.hpp --- *)
(* 50-70: one argument. None: IllegalToken is thrown *)
Fixpoint split_eq (s : text) : text * text :=
  match s with [] => ([], []) | c :: s' => if (c =? "=") then ([], s') else let (t, v) := split_eq s' in (c :: t, v) end.
Definition arg_token (s : text) : option (text * text) := match s with c :: s' => if (c =? "-") then Some (split_eq s') else None | [] => None end.
(* tlist and checked *)
Definition options := list (text * text * bool).
(* 48-73 parse; argv without the program name *)
Fixpoint arg_parse (argv : list text) (o : options) : option options :=
  match argv with [] => Some o | a :: argv' => match arg_token a with Some tv => arg_parse argv' (o ++ [(tv, false)]) | None => None end end.
(* 76-88 find *)
Definition arg_find (token : text) (o : options) : (text * text) * options :=
  (fold_left (fun (acc : text * text) (e : text * text * bool) => if text_eqb (fst (fst e)) token then fst e else acc) o ([], []),
   map (fun e : text * text * bool => if text_eqb (fst (fst e)) token then (fst e, true) else e) o).
(* 91-103 get: what is read into the variable (None: the variable is left alone) *)
Definition arg_get (token : text) (o : options) : option text * options :=
  let (opt, o') := arg_find token o in
  (match fst opt with [] => None | _ :: _ => match snd opt with [] => Some ["1"] | v => Some v end end, o').
(* 106-110 check: UncheckedToken is thrown *)
Definition arg_check (o : options) : bool := existsb (fun e : text * text * bool => negb (snd e)) o.
