(* The texts that stand for a list of headings, written independently of the parser *)
From Coq Require Import List Bool Ascii.
From Verif Require Import Model_FileParse.
Import ListNotations.
Local Open Scope char_scope.

Definition no (cs : list ascii) (w : list ascii) : Prop := Forall (fun c => ~ In c cs) w.
Definition NL : list ascii := ["010"; "013"].     (* \n and \r *)
Definition WS : list ascii := " " :: NL.
Definition legal_heading (h : list ascii) : Prop := no (":" :: "{" :: WS) h /\ match h with [] => False | c :: _ => ~ In c ["/"; "}"] end.
(* between headings: white space, comments to the end of a line, comments between slash star and star slash without a star inside *)
Inductive filler : list ascii -> Prop :=
| F0 : filler []
| FSpace c w : In c WS -> filler w -> filler (c :: w)
| FLine w c t : no NL w -> In c NL -> filler t -> filler ("/" :: "/" :: w ++ c :: t)
| FBlock w t : no ["*"] w -> filler t -> filler ("/" :: "*" :: w ++ "*" :: "/" :: t).
(* s with spaces and comments added; slashes in s are division signs *)
Inductive spread : list ascii -> list ascii -> Prop :=
| S0 : spread [] []
| SChar c s t : ~ In c ("/" :: "=" :: "," :: "{" :: WS) -> spread s t -> spread (c :: s) (c :: t)
| SDivide s t : spread s t -> match t with [] => True | d :: _ => d <> "*" /\ d <> "/" end -> spread ("/" :: s) ("/" :: t)
| SSpace s t : spread s t -> spread s (" " :: t)
| SComment w s t : no ["*"] w -> spread s t -> spread s ("/" :: "*" :: w ++ "*" :: "/" :: t).
(* a parameter: A or A = B *)
Inductive param_text : list ascii * list ascii -> list ascii -> Prop :=
| POne a t : a <> [] -> spread a t -> param_text (a, []) t
| PTwo a b t t' : a <> [] -> spread a t -> spread b t' -> param_text (a, b) (t ++ "=" :: t').
(* parameters separated by commas *)
Inductive params_text : list (list ascii * list ascii) -> list ascii -> Prop :=
| PNone t : spread [] t -> params_text [] t
| PLast p t : param_text p t -> params_text [p] t
| PMore p ps t t' : param_text p t -> params_text ps t' -> params_text (p :: ps) (t ++ "," :: t').
(* the end of a line, possibly after a comment *)
Inductive line_end : list ascii -> Prop :=
| LEnd c : In c NL -> line_end [c]
| LComment w c : no NL w -> In c NL -> line_end (" " :: "/" :: "/" :: w ++ [c]).
Inductive body_text : list node -> list ascii -> Prop :=
| BNil w : filler w -> body_text [] w
| BCons w n t ns t' : filler w -> head_text n t -> body_text ns t' -> body_text (n :: ns) (w ++ t ++ t')
with head_text : node -> list ascii -> Prop :=
| HBody h w subs t : legal_heading h -> Forall (fun c => In c WS) w -> body_text subs t ->
    head_text (Head h [] subs) (h ++ w ++ "{" :: t ++ ["}"])
| HLine h w ps t e : legal_heading h -> Forall (fun c => In c WS) w -> params_text ps t -> line_end e ->
    head_text (Head h ps []) (h ++ w ++ ":" :: t ++ e)
| HFull h w ps t subs t' : legal_heading h -> Forall (fun c => In c WS) w -> params_text ps t -> body_text subs t' ->
    head_text (Head h ps subs) (h ++ w ++ ":" :: t ++ "{" :: t' ++ ["}"]).
