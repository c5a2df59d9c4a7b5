(* Reading configuration files (src/utility/fileparse.cpp, fileparse.hpp); paths under /repo/GFlowSim/src.
   A stream is the list of characters still to be read together with the end-of-file flag, which is set by a read (or peek) that finds no
   character. Not modelled: the log message, the file system, deletion of nodes. putback puts the last character read back. *)
From Coq Require Import List Bool Ascii Arith Lia.
From Verif Require Import Model_Eval.
Import ListNotations.
Local Open Scope char_scope.

(* fileparse.hpp 13-20 ParamNode: parts A and B; 27-50 HeadNode without the parent pointer *)
Inductive node := Head (heading : text) (params : list (text * text)) (subs : list node).
(* how parsing ends: not within the allowed number of steps; with the exception UnexpectedToken; with a result *)
Inductive parsed (A : Type) := Endless | Throws | Parsed (a : A).
Arguments Endless {A}. Arguments Throws {A}. Arguments Parsed {A}.
Definition newline (c : ascii) : bool := (c =? "010") || (c =? "013").

(* fileparse.cpp 27-67 passComment: the rest of the stream and the end-of-file flag *)
Fixpoint passComment (mline : bool) (r : text) : text * bool :=
  match r with
  | [] => ([], true)
  | c :: r' =>
    if mline && (c =? "*") then
      match r' with
      | [] => ([], true)
      | d :: r'' => if (d =? "/") then (r'', false) else passComment mline r''
      end
    else if newline c then if mline then passComment mline r' else (c :: r', false)
    else passComment mline r'
  end.
(* 256-265 checkComment; None: the exception *)
Definition checkComment (r : text) : option (text * bool) :=
  match r with
  | [] => Some ([], true)
  | c :: r' => if (c =? "/") then Some (passComment false r') else if (c =? "*") then Some (passComment true r') else None
  end.
(* 69-86 passSpaces: a newline (or the end) was met, the rest, end of file *)
Fixpoint passSpaces (r : text) : bool * text * bool :=
  match r with
  | [] => (true, [], true)
  | c :: r' => if (c =? " ") then passSpaces r' else if newline c then (true, r', false) else (false, c :: r', false)
  end.
(* 88-104 passWhiteSpaces (not at the end of the file) *)
Fixpoint passWhiteSpaces (r : text) : text * bool :=
  match r with
  | [] => ([], true)
  | c :: r' => if (c =? " ") || newline c then passWhiteSpaces r' else (c :: r', false)
  end.
(* 160-183 getHeading: the heading, whether it ended with an open brace, the rest, end of file. None: the exception *)
Fixpoint getHeading (r : text) (heading : text) (whitespace : bool) : option (text * bool * text * bool) :=
  match r with
  | [] => Some (heading, false, [], true)
  | c :: r' =>
    if (c =? "{") then Some (heading, true, r', false)
    else if (c =? ":") then Some (heading, false, r', false)
    else if newline c || (c =? " ") then getHeading r' heading true
    else if whitespace then None
    else getHeading r' (heading ++ [c]) false
  end.
(* 205-244: the loop of getParam. a, b: the parts; result: the parts, more, body, the rest, end of file *)
Fixpoint getParam_loop (fuel : nat) (a_part : bool) (a b : text) (more body : bool) (r : text) : parsed (text * text * bool * bool * text * bool) :=
  match fuel with
  | O => Endless
  | S f =>
    let push (c : ascii) := (if a_part then a ++ [c] else a, if a_part then b else b ++ [c]) in
    match r with
    | [] => Parsed (a, b, more, body, [], true)
    | c :: r' =>
      if (c =? "/") then
        match r' with
        | [] => let (a', b') := push c in Parsed (a', b', more, body, [], true)      (* peek sets the flag *)
        | d :: _ =>
          if (d =? "*") || (d =? "/") then
            match checkComment r' with
            | Some (r'', true) => Parsed (a, b, more, body, r'', true)
            | Some (r'', false) => getParam_loop f a_part a b more body r''
            | None => Throws
            end
          else let (a', b') := push c in getParam_loop f a_part a' b' more body r'
        end
      else if (c =? "=") then getParam_loop f false a b more body r'
      else if (c =? ",") then Parsed (a, b, true, body, r', false)
      else if (c =? "{") then Parsed (a, b, false, true, r', false)
      else if newline c then Parsed (a, b, false, false, r', false)
      else if (c =? " ") then getParam_loop f a_part a b more body r'
      else let (a', b') := push c in getParam_loop f a_part a' b' more body r'
    end
  end.
(* 194-254 getParam and the loop of getParameters 185-192 (called with more = true): the parameters, body, the rest, end of file *)
Fixpoint getParameters (fuel : nat) (body : bool) (r : text) (eof : bool) : parsed (list (text * text) * bool * text * bool) :=
  match fuel with
  | O => Endless
  | S f =>
    if eof then Parsed ([], body, r, eof)
    else match getParam_loop (S (List.length r)) true [] [] true body r with
    | Parsed (a, b, more, body', r', eof') =>
      let p := match a, b with [], [] => [] | _, _ => [(a, b)] end in
      if more then match getParameters f body' r' eof' with
        | Parsed (ps, body'', r'', eof'') => Parsed (p ++ ps, body'', r'', eof'')
        | Endless => Endless | Throws => Throws end
      else Parsed (p, body', r', eof')
    | Endless => Endless
    | Throws => Throws
    end
  end.
(* 106-124 getBody and 126-158 getHead: the heads found, the rest, end of file *)
Fixpoint getBody (fuel : nat) (r : text) (eof : bool) : parsed (list node * text * bool) :=
  match fuel with
  | O => Endless
  | S f =>
    if eof then Parsed ([], r, eof)
    else
      match passWhiteSpaces r with
      | (r, true) => Parsed ([], r, true)
      | ([], false) => Parsed ([], [], true)   (* not reached: passWhiteSpaces put a character back *)
      | (c :: r', false) =>
        if (c =? "}") then Parsed ([], r', false)
        else if (c =? "/") then
          match checkComment r' with
          | None => Throws
          | Some (r'', eof') => getBody f r'' eof'
          end
        else
          match getHeading (c :: r') [] false with
          | None => Throws
          | Some (heading, found, r1, eof1) =>
            (* passSpaces at the end of the file reads nothing and returns true *)
            let '(nl, r2, eof2) := if eof1 then (true, r1, true) else passSpaces r1 in
            match (if negb eof2 && negb nl && negb found then getParameters (S (S (List.length r2))) false r2 eof2 else Parsed ([], found, r2, eof2)) with
            | Parsed (ps, body, r3, eof3) =>
              match (if body && negb eof3 then getBody f r3 eof3 else Parsed ([], r3, eof3)) with
              | Parsed (subs, r4, eof4) =>
                match getBody f r4 eof4 with
                | Parsed (ns, r5, eof5) => Parsed (Head heading ps subs :: ns, r5, eof5)
                | Endless => Endless | Throws => Throws end
              | Endless => Endless | Throws => Throws end
            | Endless => Endless | Throws => Throws end
          end
      end
  end.
(* 7-25 parseFile: the heads under the root *)
Definition parseFile (s : text) : parsed (list node) :=
  match getBody (S (S (List.length s))) s false with Parsed (ns, _, _) => Parsed ns | Endless => Endless | Throws => Throws end.
