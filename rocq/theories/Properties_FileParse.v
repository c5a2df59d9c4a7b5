(* C41: configuration files *)
From Coq Require Import List Bool Ascii String Arith Lia.
From Verif Require Import Model_Eval Model_FileParse Spec_FileParse Proofs_FileParse Proofs_FileParse2.
Import ListNotations.
Local Open Scope char_scope.
Notation "'txt' s" := (list_ascii_of_string s%string) (at level 5, only parsing).

Definition nl : string := String "010" EmptyString.

(* Every text that stands for a list of headings is read as that list.
   Full statement: whatever the white space and comments. Missing: tabs, comments with a star inside, parameters that end with a closing brace
   or with the end of the file instead of a line end (see the refutations below). *)
Theorem C41_recovers_tree_partial : forall ns t, body_text ns t -> parseFile t = Parsed ns.
Proof. exact file_recovered. Qed.
Print Assumptions C41_recovers_tree_partial.

(* Reading ends, whatever the text, with a tree or with the exception *)
Theorem C41_parsing_terminates : forall t, parseFile t <> Endless.
Proof. exact parseFile_finishes. Qed.
Print Assumptions C41_parsing_terminates.

(* No text stands for two different lists: white space and comments do not matter, and nothing else is lost *)
Theorem C41_text_unambiguous : forall ns ns' t, body_text ns t -> body_text ns' t -> ns = ns'.
Proof. intros ns ns' t H H'. apply file_recovered in H. apply file_recovered in H'. congruence. Qed.
Print Assumptions C41_text_unambiguous.

(* A heading with white space inside is refused *)
Theorem C41_white_space_in_heading : forall h c0 w c rest, legal_heading h -> In c0 WS -> Forall (fun c => In c WS) w -> ~ In c (":" :: "{" :: WS) ->
  parseFile (h ++ c0 :: w ++ c :: rest) = Throws.
Proof.
  intros h c0 w c rest [Hh Hf] Hc0 Hw Hc.
  assert (G2 : forall w h0 ws, (ws = true \/ w <> []) -> Forall (fun c => In c WS) w -> getHeading (w ++ c :: rest) h0 ws = None).
  { induction w0 as [|d w0 IH]; intros h0 ws Hor Hw0.
    - destruct Hor as [->|]; [|congruence]. cbn [app getHeading].
      assert (N : forall d, In d (":" :: "{" :: WS) -> (c =? d) = false) by (intros d Hd; apply neq_eqb; intros ->; contradiction).
      rewrite (N "{"), (N ":"), (N " ") by (cbn; tauto). rewrite newline_no by (intros Hn; apply Hc; cbn in *; tauto). reflexivity.
    - inversion Hw0 as [|? ? Hd Hw0']; subst. cbn [app getHeading].
      assert (N : forall e, In e ["{"; ":"] -> (d =? e) = false) by (intros e He; apply neq_eqb; intros ->; clear - He Hd; cbn in *; intuition congruence).
      rewrite (N "{"), (N ":") by (cbn; tauto).
      assert (E : newline d || (d =? " ") = true) by (rewrite orb_comm; apply ws_in; assumption). rewrite E. apply IH; auto. }
  assert (G1 : forall h1 h0, no (":" :: "{" :: WS) h1 -> getHeading (h1 ++ (c0 :: w) ++ c :: rest) h0 false = None).
  { intros h1. induction h1 as [|d h1 IH]; intros h2 Hh1.
    - cbn [app]. change (c0 :: w ++ c :: rest) with ((c0 :: w) ++ c :: rest). apply G2; [right; discriminate|constructor; assumption].
    - inversion Hh1 as [|? ? Hd Hh1']; subst. cbn [app getHeading].
      assert (N : forall e, In e (":" :: "{" :: WS) -> (d =? e) = false) by (intros e He; apply neq_eqb; intros ->; contradiction).
      rewrite (N "{"), (N ":"), (N " ") by (cbn; tauto). rewrite newline_no by (intros Hn; apply Hd; cbn in *; tauto). apply IH; exact Hh1'. }
  destruct h as [|d h]; [destruct Hf|]. unfold parseFile. cbn [getBody app]. inversion Hh as [|? ? Hd Hh']; subst.
  rewrite white_other by (intros Hn; apply Hd; right; right; exact Hn).
  rewrite (neq_eqb d "}") by (intros ->; apply Hf; cbn; tauto). rewrite (neq_eqb d "/") by (intros ->; apply Hf; cbn; tauto).
  change (d :: h ++ c0 :: w ++ c :: rest) with ((d :: h) ++ (c0 :: w) ++ c :: rest). rewrite G1 by exact Hh. reflexivity.
Qed.
Print Assumptions C41_white_space_in_heading.
Example C41_white_space_case : parseFile (txt ("My Box: 1" ++ nl)) = Throws.
Proof. vm_compute. reflexivity. Qed.

(* A concrete file:
     // comment
     Box :a = 1/2 , n{
       /* c */ Fill{ }
       Seed: 3 // last
     }                          *)
Definition case_file : list ascii := txt ("// comment" ++ nl ++ "Box :a = 1/2 , n{" ++ nl ++ "  /* c */ Fill{ }" ++ nl ++ "  Seed: 3 // last" ++ nl ++ "}" ++ nl).
Definition case_tree : list node :=
  [Head (txt "Box") [(txt "a", txt "1/2"); (txt "n", [])] [Head (txt "Fill") [] []; Head (txt "Seed") [(txt "3", [])] []]].
Ltac chars := repeat (apply Forall_cons; [cbn; intuition discriminate|]); apply Forall_nil.
Ltac spr := repeat first [apply S0 | apply SSpace | (apply SChar; [cbn; intuition discriminate|]) | (apply SDivide; [|cbn; split; discriminate])].
Ltac legal := split; [chars|cbn; intuition discriminate].
Ltac fill := repeat first [apply F0 | (apply FSpace; [cbn; tauto|])].
Example C41_case : body_text case_tree case_file.
Proof.
  refine (BCons (txt ("// comment" ++ nl)) _ (txt ("Box :a = 1/2 , n{" ++ nl ++ "  /* c */ Fill{ }" ++ nl ++ "  Seed: 3 // last" ++ nl ++ "}")) _ (txt nl) _ _ (BNil _ _)).
  - apply (FLine (txt " comment") "010" []); [chars|cbn; tauto|fill].
  - refine (HFull (txt "Box") (txt " ") _ (txt "a = 1/2 , n") _ (txt (nl ++ "  /* c */ Fill{ }" ++ nl ++ "  Seed: 3 // last" ++ nl)) _ _ _ _).
    + legal.
    + chars.
    + refine (PMore _ _ (txt "a = 1/2 ") (txt " n") _ (PLast _ _ (POne _ _ _ _))).
      * refine (PTwo _ _ (txt "a ") (txt " 1/2 ") _ _ _); [discriminate|spr|spr].
      * discriminate.
      * spr.
    + refine (BCons (txt (nl ++ "  /* c */ ")) _ (txt "Fill{ }") _ (txt (nl ++ "  Seed: 3 // last" ++ nl)) _ _ _).
      * do 3 (apply FSpace; [cbn; tauto|]). apply (FBlock (txt " c ") (txt " ")); [chars|fill].
      * refine (HBody (txt "Fill") [] [] (txt " ") _ _ (BNil _ _)); [legal|chars|fill].
      * refine (BCons (txt (nl ++ "  ")) _ (txt ("Seed: 3 // last" ++ nl)) _ [] _ _ (BNil _ F0)); [fill|].
        refine (HLine (txt "Seed") [] _ (txt " 3") (txt (" // last" ++ nl)) _ _ (PLast _ _ (POne _ _ _ _)) (LComment (txt " last") "010" _ _));
          [legal|chars|discriminate|spr|chars|cbn; tauto].
  - fill.
Qed.
Example C41_case_parsed : parseFile case_file = Parsed case_tree.
Proof. vm_compute. reflexivity. Qed.

(* After a closing brace too many, the rest of the file is silently ignored, whatever it is *)
Theorem C41_extra_brace_ignores_rest : forall ns t rest, body_text ns t -> parseFile (t ++ "}" :: rest) = Parsed ns.
Proof. exact brace_stops. Qed.
Print Assumptions C41_extra_brace_ignores_rest.
Example C41_extra_brace_case : parseFile (txt ("A: 1" ++ nl ++ "}" ++ nl ++ "B: 2" ++ nl)) = Parsed [Head (txt "A") [(txt "1", [])] []].
Proof. vm_compute. reflexivity. Qed.

(* Comments matter: a comment that ends with two stars and a slash is not closed *)
Theorem C41_comment_double_star_refuted :
  parseFile (txt ("/* note */" ++ nl ++ "A: 1" ++ nl)) = Parsed [Head (txt "A") [(txt "1", [])] []] /\
  parseFile (txt ("/* note **/" ++ nl ++ "A: 1" ++ nl)) = Parsed [].
Proof. vm_compute. split; reflexivity. Qed.
Print Assumptions C41_comment_double_star_refuted.

(* White space matters: a tab becomes part of the heading, or of the value *)
Theorem C41_tab_refuted :
  parseFile ("009" :: txt ("A: 1" ++ nl)) = Parsed [Head ("009" :: txt "A") [(txt "1", [])] []] /\
  parseFile (txt "A:" ++ "009" :: txt ("1" ++ nl)) = Parsed [Head (txt "A") [("009" :: txt "1", [])] []].
Proof. vm_compute. split; reflexivity. Qed.
Print Assumptions C41_tab_refuted.

(* White space matters: a closing brace on the line of a parameter becomes part of the parameter, and a missing one is not noticed *)
Theorem C41_brace_in_parameter_refuted :
  parseFile (txt "A { B: 1 }") = Parsed [Head (txt "A") [] [Head (txt "B") [(txt "1}", [])] []]] /\
  parseFile (txt ("A { B: 1" ++ nl ++ "}")) = Parsed [Head (txt "A") [] [Head (txt "B") [(txt "1", [])] []]] /\
  parseFile (txt ("A { B: 1" ++ nl)) = Parsed [Head (txt "A") [] [Head (txt "B") [(txt "1", [])] []]].
Proof. vm_compute. repeat split; reflexivity. Qed.
Print Assumptions C41_brace_in_parameter_refuted.
