(* Arithmetic expressions in configuration files (src/other/evaluation.cpp, evaluation.hpp); paths under /repo/GFlowSim/src.
   A std::string is a list of characters. Values are exact rationals (float in the code). *)
From Coq Require Import List Bool Ascii String QArith Arith Lia.
Import ListNotations.
Local Open Scope char_scope.

Definition text := list ascii.
(* std::map<string, string> *)
Definition vars := list (text * text).
Fixpoint text_eqb (a b : text) : bool :=
  match a, b with [], [] => true | x :: a', y :: b' => (x =? y)%char && text_eqb a' b' | _, _ => false end.
Fixpoint lookup (v : vars) (name : text) : option text :=
  match v with [] => None | (k, x) :: v' => if text_eqb k name then Some x else lookup v' name end.
(* evaluation.hpp 9-16 cast; conv: convert<float> of utility/printingutility.hpp 66-72 (a stringstream; not modelled, any function) *)
Definition cast (conv : text -> Q) (v : vars) (s : text) : Q := match lookup v s with Some x => conv x | None => conv s end.

(* evaluation.hpp 19-49 EvaluationNode, without the parent pointer *)
Inductive tree := Node (val : text) (left right : option tree).
Definition leaf (s : text) : tree := Node s None None.
Definition is (c : ascii) (s : text) : bool := text_eqb s [c].
(* 14-24 EvaluationNode::evaluate; None: a null pointer is dereferenced, or a division by zero (infinity or NaN in the code) *)
Fixpoint eval (conv : text -> Q) (v : vars) (t : tree) : option Q :=
  match t with
  | Node s None _ => Some (cast conv v s)
  | Node s (Some l) r =>
    let two (f : Q -> Q -> option Q) := match r with
      | Some r' => match eval conv v l, eval conv v r' with Some a, Some b => f a b | _, _ => None end
      | None => None end in
    if is "+" s then two (fun a b => Some (a + b)%Q)
    else if is "-" s then two (fun a b => Some (a - b)%Q)
    else if is "*" s then two (fun a b => Some (a * b)%Q)
    else if is "/" s then two (fun a b => if Qeq_bool b 0 then None else Some (a / b)%Q)
    else Some 0%Q
  end.

(* The characters that end a name or a number (68) *)
Definition special (c : ascii) : bool := (c =? "+") || (c =? "-") || (c =? "*") || (c =? "/") || (c =? "(") || (c =? ")").
(* 61-79 getNext: the text and what is left. The code keeps an index; here the rest of the text. The index is decremented at the end
   and incremented by the caller. *)
Fixpoint getNext (s : text) : text * text :=
  match s with
  | [] => ([], [])
  | c :: s' => if (c =? " ") then getNext s' else if special c then ([], s) else let (a, r) := getNext s' in (c :: a, r)
  end.
(* 93-96 *)
Fixpoint skip_spaces (s : text) : text := match s with c :: s' => if (c =? " ") then skip_spaces s' else s | [] => [] end.

(* 81-178 parseStringToEvaluate. The nodes from head down to top form a chain of right children; the chain above top is kept as a
   list of (val, left), innermost first, whose first element is top's parent. *)
Record pstate := mkP { p_spine : list (text * option tree); p_top : option tree; p_first : bool; p_turn : bool }.
Definition p_init : pstate := mkP [] None true false.
Fixpoint plug (sp : list (text * option tree)) (t : tree) : tree := match sp with [] => t | (v, l) :: sp' => plug sp' (Node v l (Some t)) end.
Definition p_head (p : pstate) : option tree := option_map (plug (p_spine p)) (p_top p).
Definition val_of (t : tree) : text := match t with Node v _ _ => v end.
(* 116-127: an expression was found *)
Definition got_expr (x : tree) (p : pstate) : pstate :=
  match p_top p with
  | None => mkP [] (Some x) (p_first p) (negb (p_turn p))
  | Some (Node v l _) => mkP (p_spine p) (Some (Node v l (Some x))) (p_first p) (negb (p_turn p))
  end.
(* 132-152: + and -. None: setLeft of a null pointer *)
Definition got_low (c : ascii) (p : pstate) : option pstate :=
  match p_top p with
  | None => None
  | Some t => Some (mkP (p_spine p) (Some (Node [c] (Some t) None)) false (negb (p_turn p)))
  end.
(* 154-183: * and / *)
Definition got_high (c : ascii) (p : pstate) : option pstate :=
  match p_top p with
  | None => None
  | Some (Node v l r as t) =>
    if p_first p then Some (mkP (p_spine p) (Some (Node [c] (Some t) None)) false (negb (p_turn p)))
    else if is "*" v || is "/" v then Some (mkP (p_spine p) (Some (Node [c] (Some t) None)) false (negb (p_turn p)))
    else if is "+" v || is "-" v then
      match r with
      | None => None
      | Some r' => Some (mkP ((v, l) :: p_spine p) (Some (Node [c] (Some r') None)) false (negb (p_turn p)))
      end
    else Some (mkP (p_spine p) (p_top p) (p_first p) (negb (p_turn p)))
  end.
(* What a run gives: the loop has not ended after the allowed number of steps; undefined behaviour (extra read before it has a value, or a
   null pointer dereferenced); or a value *)
Inductive outcome (A : Type) := Unfinished | Undefined | Gives (a : A).
Arguments Unfinished {A}. Arguments Undefined {A}. Arguments Gives {A}.
(* The loop 90-190. fresh: extra has no value yet (it is uninitialised). Result: head (None: null) and the rest of the text. *)
Fixpoint parse (fuel : nat) (s : text) (fresh : bool) (p : pstate) : outcome (option tree * text) :=
  match fuel with
  | O => Unfinished
  | S f =>
    match s with
    | [] => Gives (p_head p, [])
    | _ :: _ =>
      match skip_spaces s with
      | [] => parse f [] false (got_expr (leaf []) p)     (* the terminating null character *)
      | c :: s' =>
        if (c =? "(") then
          match parse f s' true p_init with
          | Gives (Some x, r) => parse f r false (got_expr x p)
          | Gives (None, r) => parse f r false (mkP (p_spine p) (p_top p) (p_first p) (negb (p_turn p)))
          | Unfinished => Unfinished
          | Undefined => Undefined
          end
        else if (c =? ")") then Gives (p_head p, s')
        else if negb (c =? "+") && (negb (c =? "-") || negb (p_turn p)) && negb (c =? "*") && negb (c =? "/") then
          let (a, r) := getNext (c :: s') in parse f r false (got_expr (leaf a) p)
        else if fresh then Undefined
        else
          match (if (c =? "+") || (c =? "-") then got_low c p else got_high c p) with
          | Some p' => parse f s' false p'
          | None => Undefined
          end
      end
    end
  end.
(* 50-59 Eval::evaluate; a division by zero (infinity or NaN in the code) counts as undefined *)
Definition evaluate (conv : text -> Q) (v : vars) (s : text) : outcome Q :=
  match parse (2 * List.length s + 2) s true p_init with
  | Gives (Some t, _) => match eval conv v t with Some q => Gives q | None => Undefined end
  | Gives (None, _) | Undefined => Undefined
  | Unfinished => Unfinished
  end.
