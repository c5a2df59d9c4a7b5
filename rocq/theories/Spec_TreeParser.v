(* What walking over a configuration file should do *)
From Coq Require Import List Bool Ascii Arith ZArith.
From Verif Require Import Model_Eval Model_FileParse Model_TreeParser.
Import ListNotations.

(* The headings directly under the node at path p, in the order of the file: (name, path) *)
Definition under (root : node) (p : list nat) : list (list ascii * list nat) :=
  match node_at root p with
  | None => []
  | Some (Head _ _ subs) => combine (map (fun n => match n with Head h _ _ => h end) subs) (map (fun i => p ++ [i]) (seq 0 (length subs)))
  end.
(* those with a given name *)
Definition named (root : node) (p : list nat) (name : list ascii) : list (list nat) :=
  map snd (filter (fun c => if list_eq_dec ascii_dec (fst c) name then true else false) (under root p)).

(* What a program may do between begin and next *)
Inductive op := OFocus (name : list ascii) | OFocus0 (name : list ascii) | OUp | OBegin (name : list ascii).
Definition do_op (o : op) (t : tparser) : option tparser :=
  match o with
  | OFocus name => Some (snd (t_focus_on name t))
  | OFocus0 name => Some (snd (t_focus0 name t))
  | OUp => option_map snd (t_up t)
  | OBegin name => if (t_point t =? -1)%Z then None else Some (snd (t_begin name t))   (* only inside of an iteration *)
  end.
Fixpoint do_ops (l : list op) (t : tparser) : option tparser := match l with [] => Some t | o :: l' => match do_op o t with Some t' => do_ops l' t' | None => None end end.
(* do { body } while (next()): the nodes in focus at the start of each round, and the parser at the end *)
Inductive rounds : tparser -> list (option (list nat)) -> tparser -> Prop :=
| RLast t ops t1 t2 : do_ops ops t = Some t1 -> t_next t1 = (false, t2) -> rounds t [t_focus t] t2
| RMore t ops t1 t2 v t3 : do_ops ops t = Some t1 -> t_next t1 = (true, t2) -> rounds t2 v t3 -> rounds t (t_focus t :: v) t3.
(* The parsers a program can have that has iterated with begin(name), next and end *)
Inductive reached (root : node) : tparser -> Prop :=
| RNew : reached root (t_new root)
| ROp t o t' : reached root t -> do_op o t = Some t' -> reached root t'
| RBegin t name : reached root t -> reached root (snd (t_begin name t))
| RNext t : reached root t -> t_point t <> (-1)%Z -> reached root (snd (t_next t))
| REnd t : reached root t -> reached root (t_end t).
