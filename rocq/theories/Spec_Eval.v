(* The arithmetic expressions of configuration files and their usual meaning, written independently of the model of the parser. *)
From Coq Require Import List Bool Ascii QArith Arith Lia.
Import ListNotations.
Local Open Scope char_scope.

(* sums of products of factors; + and -, * and / are left associative *)
Inductive expr := ETerm (t : term) | EAdd (e : expr) (t : term) | ESub (e : expr) (t : term)
with term := TFac (f : factor) | TMul (t : term) (f : factor) | TDiv (t : term) (f : factor)
with factor := FAtom (a : list ascii) | FPar (e : expr).

(* a number or the name of a variable: no spaces, no operators, no parentheses *)
Definition plain (c : ascii) : Prop := ~ In c [" "; "+"; "-"; "*"; "/"; "("; ")"].
Definition name_like (a : list ascii) : Prop := a <> [] /\ Forall plain a.

(* e can be written as s, with any number of spaces before each symbol *)
Inductive writes_e : expr -> list ascii -> Prop :=
| WTerm t s : writes_t t s -> writes_e (ETerm t) s
| WAdd e t s n s' : writes_e e s -> writes_t t s' -> writes_e (EAdd e t) (s ++ repeat " " n ++ ["+"] ++ s')
| WSub e t s n s' : writes_e e s -> writes_t t s' -> writes_e (ESub e t) (s ++ repeat " " n ++ ["-"] ++ s')
with writes_t : term -> list ascii -> Prop :=
| WFac f s : writes_f f s -> writes_t (TFac f) s
| WMul t f s n s' : writes_t t s -> writes_f f s' -> writes_t (TMul t f) (s ++ repeat " " n ++ ["*"] ++ s')
| WDiv t f s n s' : writes_t t s -> writes_f f s' -> writes_t (TDiv t f) (s ++ repeat " " n ++ ["/"] ++ s')
with writes_f : factor -> list ascii -> Prop :=
| WAtom a n : name_like a -> writes_f (FAtom a) (repeat " " n ++ a)
| WPar e s n m : writes_e e s -> writes_f (FPar e) (repeat " " n ++ ["("] ++ s ++ repeat " " m ++ [")"]).

(* the value of a name: the variable's, or the number it spells *)
Definition name_value (number : list ascii -> Q) (variables : list (list ascii * list ascii)) (a : list ascii) : Q :=
  match find (fun kv => if list_eq_dec ascii_dec (fst kv) a then true else false) variables with
  | Some (_, x) => number x
  | None => number a
  end.
(* the usual meaning; None: there is a division by zero *)
Definition op2 (f : Q -> Q -> Q) (a b : option Q) : option Q := match a, b with Some x, Some y => Some (f x y) | _, _ => None end.
Definition div2 (a b : option Q) : option Q := match b with Some y => if Qeq_bool y 0 then None else op2 Qdiv a b | None => None end.
Section Meaning.
Variable number : list ascii -> Q.
Variable variables : list (list ascii * list ascii).
Fixpoint value_e (e : expr) : option Q :=
  match e with ETerm t => value_t t | EAdd e t => op2 Qplus (value_e e) (value_t t) | ESub e t => op2 Qminus (value_e e) (value_t t) end
with value_t (t : term) : option Q :=
  match t with TFac f => value_f f | TMul t f => op2 Qmult (value_t t) (value_f f) | TDiv t f => div2 (value_t t) (value_f f) end
with value_f (f : factor) : option Q :=
  match f with FAtom a => Some (name_value number variables a) | FPar e => value_e e end.
End Meaning.

(* no subtracted product (or quotient) is followed by another + or - in the same sum *)
Definition one_factor (t : term) : Prop := match t with TFac _ => True | _ => False end.
Fixpoint fine_e (e : expr) : Prop :=
  let settled (e : expr) := match e with ESub _ t => one_factor t | _ => True end in
  match e with ETerm t => fine_t t | EAdd e t => fine_e e /\ settled e /\ fine_t t | ESub e t => fine_e e /\ settled e /\ fine_t t end
with fine_t (t : term) : Prop :=
  match t with TFac f => fine_f f | TMul t f => fine_t t /\ fine_f f | TDiv t f => fine_t t /\ fine_f f end
with fine_f (f : factor) : Prop := match f with FAtom _ => True | FPar e => fine_e e end.
