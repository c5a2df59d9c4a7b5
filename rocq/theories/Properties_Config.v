(* C91 - C95: from the configuration file to the simulation *)
From Coq Require Import Ascii String Permutation.
From Verif Require Import Lib Spec_Eval Model_Eval Proofs_Eval Model_FileParse Model_TreeParser Spec_TreeParser Proofs_TreeParser Model_Geometry Model_Fill
  Model_Handlers Spec_Handlers Proofs_ForceMaster Properties_Handlers Model_Config Spec_Config Proofs_Config.
Local Open Scope list_scope.

(* The vocabulary: the lines with a name are those a loop over begin(name) visits (C42), and the lines of a table are visited sorted by heading *)
Theorem C91_lines_visited : forall n name, map (node_at n) (named n [] (T name)) = map Some (lines name n).
Proof. intros. rewrite <- heads_lines. apply named_heads. Qed.
Print Assumptions C91_lines_visited.

(* Variables. Whatever variables are preset, the command line and the file: each Var line declares a variable; a preset value counts first, then the first
   Var line with the name, with its value from the command line if it is there; then come the Value lines, one after the other. Every name declared
   counts as looked up on the command line. The only failures: an empty Value (exception), a Value without a value (undefined). *)
Theorem C91_variables : forall number show root o v ds1 ds2,
  Forall2 says (lines "Var" root) ds1 -> Forall2 says (lines "Value" root) ds2 -> Forall (fun d => fst d <> []) (ds1 ++ ds2) ->
  let cl := map fst o in
  exists vs v1, Forall2 (settled cl) ds1 vs /\
    (forall x, var_of v1 x = match var_of v x with Some t => Some t | None => var_of (combine (map fst ds1) vs) x end) /\
    ((exists v' o', read_variables number show root o v = Ok (v', o') /\ value_steps number show cl ds2 v1 v' /\
        o' = map (fun e : text * text * bool => (fst e, snd e || (if in_dec (list_eq_dec ascii_dec) (fst (fst e)) (map fst (ds1 ++ ds2)) then true else false))) o) \/
     (exists pre d post vk x, ds2 = pre ++ d :: post /\ value_steps number show cl pre v1 vk /\ settled cl d x /\
        ((x = [] /\ read_variables number show root o v = Throw) \/ (x <> [] /\ (forall q, evaluate number vk x <> Gives q) /\ read_variables number show root o v = Crash)))).
Proof.
  intros number show root o v ds1 ds2 H1 H2 HN cl. apply Forall_app in HN. destruct HN as [N1 N2].
  destruct (read_vars_spec _ _ o v H1 N1) as (vs & v1 & S1 & S2 & S3). exists vs, v1. split; [exact S1|]. split; [exact S3|].
  unfold read_variables. rewrite !heads_lines, S2. cbn [bind].
  destruct (read_values_spec number show cl _ _ (mark_names (map fst ds1) o) v1 H2 N2 (mark_fst _ _)) as [(v' & R1 & R2)|R]; [left|right; exact R].
  exists v', (mark_names (map fst ds2) (mark_names (map fst ds1) o)). split; [exact R1|]. split; [exact R2|].
  unfold mark_names. rewrite map_map. apply map_ext. intros [[n x] b]. cbn [fst snd]. f_equal. rewrite <- orb_assoc. f_equal. rewrite map_app.
  destruct (in_dec (list_eq_dec ascii_dec) n (map fst ds1 ++ map fst ds2)) as [i|i]; rewrite in_app_iff in i;
    destruct (in_dec (list_eq_dec ascii_dec) n (map fst ds1)); destruct (in_dec (list_eq_dec ascii_dec) n (map fst ds2)); cbn [orb]; try reflexivity; intuition.
Qed.
Print Assumptions C91_variables.
(* a Var line without a parameter: memory outside of an array is read *)
Theorem C91_empty_declaration_refuted : forall number show root o v pre l post, lines "Var" root = pre ++ l :: post ->
  (exists ds, Forall2 says pre ds /\ Forall (fun d => fst d <> []) ds) -> (match l with Head _ ps _ => ps = [] end) -> read_variables number show root o v = Crash.
Proof.
  intros number show root o v pre l post E (ds & F & N) HL. unfold read_variables. rewrite heads_lines, E.
  assert (G : forall o v, read_vars (pre ++ l :: post) o v = Crash).
  { clear - F HL. induction F as [|n d pre ds Hn F IH]; intros o v; cbn [app read_vars].
    - destruct l as [h ps subs]. subst ps. reflexivity.
    - destruct n as [h ps subs], d as [name value]. destruct Hn as (rest & ->). cbn [h_params]. destruct (cl_get o name value). apply IH. }
  now rewrite G.
Qed.
Print Assumptions C91_empty_declaration_refuted.

(* Using variables. A variable whose text is a number means that number, in expressions and as an argument. Partial: texts that are plain (no operators) and not names of variables themselves *)
Lemma evaluate_name number v a : name_like a -> evaluate number v a = Gives (number (meant v a)).
Proof.
  intros H. assert (W : writes_e (ETerm (TFac (FAtom a))) a) by (apply WTerm, WFac, (WAtom a 0 H)).
  destruct H as [N P]. unfold evaluate.
  assert (G : forall s, Forall plain s -> getNext s = (s, [])).
  { induction 1 as [|c s Hc Hs IH]; [reflexivity|]. cbn [getNext]. unfold plain in Hc. cbn in Hc.
    destruct (Ascii.eqb_spec c " "); [subst; exfalso; tauto|]. unfold special.
    destruct (Ascii.eqb_spec c "+"); [subst; exfalso; tauto|]. destruct (Ascii.eqb_spec c "-"); [subst; exfalso; tauto|]. destruct (Ascii.eqb_spec c "*"); [subst; exfalso; tauto|].
    destruct (Ascii.eqb_spec c "/"); [subst; exfalso; tauto|]. destruct (Ascii.eqb_spec c "("); [subst; exfalso; tauto|]. destruct (Ascii.eqb_spec c ")"); [subst; exfalso; tauto|]. cbn [orb]. now rewrite IH. }
  destruct a as [|c a]; [contradiction|]. assert (GA := G _ P). inversion P as [|? ? Hc P']; subst. unfold plain in Hc. cbn in Hc.
  replace (2 * Datatypes.length (c :: a) + 2)%nat with (S (S (2 * Datatypes.length a + 2)))%nat by (cbn; lia).
  cbn [parse skip_spaces]. destruct (Ascii.eqb_spec c " "); [subst; exfalso; tauto|].
  destruct (Ascii.eqb_spec c "("); [subst; exfalso; tauto|]. destruct (Ascii.eqb_spec c ")"); [subst; exfalso; tauto|].
  destruct (Ascii.eqb_spec c "+"); [subst; exfalso; tauto|]. destruct (Ascii.eqb_spec c "*"); [subst; exfalso; tauto|]. destruct (Ascii.eqb_spec c "/"); [subst; exfalso; tauto|].
  destruct (Ascii.eqb_spec c "-"); [subst; exfalso; tauto|]. cbn [negb andb orb p_turn p_init]. rewrite GA. cbn [parse got_expr p_top p_init p_head p_spine option_map plug eval leaf].
  f_equal. unfold cast, meant. rewrite lookup_var. now destruct (var_of v (c :: a)).
Qed.
Theorem C91_use_partial : forall number v a t, name_like a -> var_of v a = Some t -> name_like t -> var_of v t = None ->
  evaluate number v a = Gives (number t) /\ forall h b rest subs, arg_real number v (Head h ((a, b) :: rest) subs) = Ok (number t).
Proof.
  intros number v a t Ha Hv Ht Hn. split; [rewrite (evaluate_name _ _ _ Ha); unfold meant; now rewrite Hv|].
  intros h b rest subs. unfold arg_real. cbn [h_params]. rewrite lookup_var, Hv. unfold ev. rewrite (evaluate_name _ _ _ Ht). unfold meant. now rewrite Hn.
Qed.
Print Assumptions C91_use_partial.

(* A reader of decimal numbers: the longest beginning that looks like a number; nothing readable, and an unfinished exponent, give 0 *)
Definition is_digit (c : ascii) : bool := (48 <=? nat_of_ascii c)%nat && (nat_of_ascii c <=? 57)%nat.
Fixpoint digits_of (s : text) : text * text := match s with c :: s' => if is_digit c then let (d, r) := digits_of s' in (c :: d, r) else ([], s) | [] => ([], []) end.
Definition nat_of (s : text) : Z := fold_left (fun n c => 10 * n + (Z.of_nat (nat_of_ascii c) - 48))%Z s 0%Z.
Definition unsigned_number (s : text) : Q :=
  let (d, r) := digits_of s in
  let (f, r2) := match r with "."%char :: r' => digits_of r' | _ => ([], r) end in
  let m := ((inject_Z (nat_of (d ++ f))) / inject_Z (10 ^ Z.of_nat (length f)))%Q in
  match r2 with
  | "e"%char :: r3 => let (sg, r4) := match r3 with "-"%char :: x => ((-1)%Z, x) | "+"%char :: x => (1%Z, x) | _ => (1%Z, r3) end in
      match digits_of r4 with ([], _) => 0%Q | (e, _) => if (sg =? 1)%Z then m * inject_Z (10 ^ nat_of e) else m / inject_Z (10 ^ nat_of e) end
  | _ => m
  end.
Definition decimal (s : text) : Q := match s with "-"%char :: s' => (- unsigned_number s')%Q | _ => unsigned_number s end.
Definition decimal_int (s : text) : Z := match s with "-"%char :: s' => (- nat_of (fst (digits_of s')))%Z | _ => nat_of (fst (digits_of s)) end.

Definition H0 (name : string) (ps : list (string * string)) (subs : list node) : node := Head (T name) (map (fun p => (T (fst p), T (snd p))) ps) subs.
(* An example: Var: n=3, Var: w=2.5, Var: n=7, Value: area=w*w, Value: half=area/2; preset w=4, command line -n=" 5 6" -x *)
Definition var_file : node := H0 "" [] [H0 "Var" [("n","3")]%string []; H0 "Var" [("w","2.5")]%string []; H0 "Var" [("n","7")]%string []; H0 "Value" [("area","w*w")]%string []; H0 "Value" [("half","area/2")]%string []].
Definition show_int (q : Q) : text := if Qeq_bool q 16 then T "16" else if Qeq_bool q 8 then T "8" else T "0".
Example C91_case : exists v' o', read_variables decimal show_int var_file [((T "n", T " 5 6"), false); ((T "x", []), false)] [(T "w", T "4")] = Ok (v', o') /\
  var_of v' (T "n") = Some (T "5") /\ var_of v' (T "w") = Some (T "4") /\ var_of v' (T "area") = Some (T "16") /\ var_of v' (T "half") = Some (T "8") /\ var_of v' (T "x") = None /\
  o' = [((T "n", T " 5 6"), true); ((T "x", []), false)].
Proof. eexists. eexists. split; [vm_compute; reflexivity|]. vm_compute. repeat split. Qed.

(* A text with operators means different numbers in different places: with Var: w=2*3 an expression takes w for 2, an argument for 6 *)
Theorem C91_product_refuted : let v := [(T "w", T "2*3")] in
  (exists q, evaluate decimal v (T "w") = Gives q /\ q == 2) /\ (exists q, arg_real decimal v (H0 "Mass" [("w","")]%string []) = Ok q /\ q == 6).
Proof. cbv zeta. split; (eexists; split; [vm_compute; reflexivity|reflexivity]). Qed.
Print Assumptions C91_product_refuted.
(* A small value is written with an exponent (1e-05) and read back as a difference: with Value: w=1/100000 the mass w is negative *)
Theorem C91_small_value_refuted : forall show, (forall q, q == 1 # 100000 -> show q = T "1e-05") ->
  exists v o q, read_variables decimal show (H0 "" [] [H0 "Value" [("w","1/100000")]%string []]) [] [] = Ok (v, o) /\
    arg_real decimal v (H0 "Mass" [("w","")]%string []) = Ok q /\ q < 0.
Proof.
  intros show Hs. unfold read_variables. change (heads (kw "Var") _) with (@nil node). cbn [read_vars bind].
  set (l := heads (kw "Value") _). vm_compute in l. subst l. cbn [read_values h_params]. change (cl_get [] ?a ?b) with (b, @nil (text * text * bool)). cbv beta iota.
  match goal with |- context [ev decimal [] ?s] => assert (E : exists q, ev decimal [] s = Ok q /\ q == 1 # 100000) by (eexists; split; [vm_compute; reflexivity|reflexivity]) end.
  destruct E as (q & E & Eq). rewrite E. cbn [bind]. rewrite (Hs q Eq). eexists. eexists. eexists. split; [reflexivity|]. split; [vm_compute; reflexivity|]. reflexivity.
Qed.
Print Assumptions C91_small_value_refuted.

(* Dimensions: 2 unless the file says otherwise; none or a negative number is an exception *)
Theorem C92_dimensions : forall number v root, (silent "Dimensions" root -> read_dimensions number v root = Ok 2%Z) /\
  (forall a, first_says "Dimensions" root a -> let d := number (meant v a) in ((0 < d)%Z -> read_dimensions number v root = Ok d) /\ ((d <= 0)%Z -> read_dimensions number v root = Throw)).
Proof.
  intros number v root. unfold read_dimensions. split; [intros H; now rewrite (first_int_silent _ _ _ _ H)|].
  intros a H. rewrite (first_int _ _ _ _ _ H). cbv zeta. destruct (Z.leb_spec (number (meant v a)) 0); split; intros; auto; lia.
Qed.
Print Assumptions C92_dimensions.
Example C92_dimensions_case : first_says "Dimensions" (H0 "" [] [H0 "Dimensions" [("d","")]%string []]) (T "d") /\ read_dimensions decimal_int [(T "d", T "3")] (H0 "" [] [H0 "Dimensions" [("d","")]%string []]) = Ok 3%Z.
Proof. split; [|vm_compute; reflexivity]. split; [discriminate|]. eexists. exists [], []. split; [reflexivity|]. exists []. reflexivity. Qed.

Lemma map_res_inv {A B} (f : A -> res B) : forall l l', map_res f l = Ok l' -> Forall2 (fun a b => f a = Ok b) l l'.
Proof.
  induction l as [|a l IH]; intros l' H; cbn [map_res] in H; [injection H as <-; constructor|]. destruct (f a) as [| |b] eqn:E; try discriminate. cbn [bind] in H.
  destruct (map_res f l) as [| |bs] eqn:E2; try discriminate. cbn [bind] in H. injection H as <-. constructor; [exact E|now apply IH].
Qed.
Lemma ev_worth number v s q : ev number v s = Ok q <-> worth number v s q.
Proof. unfold ev, worth. destruct (evaluate number v s); split; intros H; try discriminate; congruence. Qed.
Lemma Forall2_iff {A B} (P P' : A -> B -> Prop) : (forall a b, P a b <-> P' a b) -> forall l l', Forall2 P l l' -> Forall2 P' l l'.
Proof. intros H l l'. induction 1; constructor; auto. now apply H. Qed.
(* The box is exactly what the first Bounds line describes: a width for all dimensions, an interval for each (in the order of the file), or the box around a
   ball; without a Bounds line there is an exception *)
Theorem C92_box : forall number v dims full root b,
  read_bounds number v dims full root = Ok b <-> exists l rest, lines "Bounds" root = l :: rest /\ box_of number v dims full l b.
Proof.
  intros number v dims full root b. unfold read_bounds. rewrite first_head_lines. destruct (lines "Bounds" root) as [|l rest]; cbn [hd_error].
  { split; [discriminate|intros (l & rest & E & _); discriminate]. }
  transitivity (box_of number v dims full l b).
  2:{ split; [intros H; exists l, rest; auto|]. intros (l' & r' & E & H). injection E as <- <-. exact H. }
  assert (EVP : forall cs x, Forall2 (fun p : text * text => worth number v (fst p)) cs x -> map_res (fun p : text * text => ev number v (fst p)) cs = Ok x).
  { intros cs x F. apply (map_res_ok _ (fun p : text * text => worth number v (fst p))); [|exact F]. intros p q Hp. now apply ev_worth. }
  assert (EVC : forall subs b0, Forall2 (fun l (i : Q * Q) => match l with Head _ [(mn, _); (mx, _)] [] => worth number v mn (fst i) /\ worth number v mx (snd i) | _ => False end) subs b0 ->
     map_res (fun c : node => match h_params c, h_subs c with [(mn, _); (mx, _)], [] => do a <- ev number v mn; do b <- ev number v mx; Ok (a, b) | _, _ => Throw end) subs = Ok b0).
  { intros subs b0 F. eapply map_res_ok; [|exact F]. intros [h ps ss] [i1 i2] Hc. cbn [h_params h_subs]. destruct ps as [|[mn x1] [|[mx x2] [|p ps]]]; try contradiction. destruct ss; [|contradiction].
    destruct Hc as [C1 C2]. apply ev_worth in C1, C2. cbn [fst snd] in *. now rewrite C1, C2. }
  split.
  - intros H. unfold parse_region in H. destruct l as [h ps subs]. cbn [h_subs] in H.
    destruct ((length subs =? 0)%nat && text_eqb (argName (Head h ps subs)) (kw "Full")) eqn:EF.
    { apply andb_true_iff in EF. destruct EF as [E1 E2]. apply Nat.eqb_eq, length_zero_iff_nil in E1. apply text_eqb_eq in E2. subst subs. cbn [bind bounding_box] in H. injection H as <-.
      unfold argName in E2. cbn [h_params] in E2. destruct ps as [|[a x] ps]; [discriminate|]. subst a. apply BoxFull. }
    destruct (text_eqb (argName (Head h ps subs)) (kw "Sphere")) eqn:ES.
    { apply text_eqb_eq in ES. unfold argName in ES. cbn [h_params] in ES. destruct ps as [|[a x] ps]; [discriminate|]. subst a.
      destruct subs as [|c [|r [|? ?]]]; try discriminate. destruct c as [h1 cs s1], r as [h2 rs s2]. cbn [h_params] in H.
      destruct (Nat.eqb_spec (length cs) dims) as [EL|]; [|discriminate]. cbn [negb] in H.
      destruct (map_res _ cs) as [| |xs] eqn:EM; try discriminate. cbn [bind] in H. destruct rs as [|[r y] rs]; [discriminate|].
      destruct (ev number v r) as [| |q] eqn:EQ; try discriminate. cbn [bind bounding_box] in H. injection H as <-. apply BoxBall; [exact EL| |now apply ev_worth].
      apply map_res_inv in EM. eapply Forall2_iff; [|exact EM]. intros p q'. apply ev_worth. }
    destruct (text_eqb (argName (Head h ps subs)) (kw "Box")) eqn:EB.
    { apply text_eqb_eq in EB. unfold argName in EB. cbn [h_params] in EB, H. destruct ps as [|[a x] ps]; [discriminate|]. subst a.
      destruct subs; [|discriminate]. destruct ps; [|discriminate]. cbn [length Nat.eqb negb] in H. destruct (ev number v x) as [| |w] eqn:EW; try discriminate. cbn [bind bounding_box] in H. injection H as <-.
      apply BoxWidth. now apply ev_worth. }
    destruct (Nat.eqb_spec (length subs) dims) as [EL|]; [|discriminate]. cbn [negb] in H. destruct (map_res _ subs) as [| |bs] eqn:EM; try discriminate. cbn [bind bounding_box] in H. injection H as <-.
    apply BoxEach; [|exact EL|].
    + destruct ps as [|[a x] ps]; [exact I|]. unfold argName in EF, ES, EB. cbn [h_params] in EF, ES, EB.
      split; [intros ->; rewrite teqb_refl in ES; discriminate|]. split; [intros ->; rewrite teqb_refl in EB; discriminate|]. intros -> ->. cbn [length Nat.eqb andb] in EF. rewrite teqb_refl in EF. discriminate.
    + apply map_res_inv in EM. clear -EM. induction EM as [|c [i1 i2] l l' E F IH]; constructor; [|exact IH]. destruct c as [h ps ss]. cbn [h_params h_subs] in E.
      destruct ps as [|[mn x1] [|[mx x2] [|p ps]]]; try discriminate. destruct ss; [|discriminate].
      destruct (ev number v mn) as [| |a] eqn:Ea; try discriminate. cbn [bind] in E. destruct (ev number v mx) as [| |c] eqn:Ec; try discriminate. cbn [bind] in E. injection E as <- <-. cbn [fst snd]. split; now apply ev_worth.
  - intros H. unfold parse_region. destruct H as [h x ps|h w q W|h ps subs b NA EL F|h x ps h1 cs s1 h2 r y rs s2 c q EL F W].
    + reflexivity.
    + cbn [h_subs length Nat.eqb h_params argName negb]. change (text_eqb (T "Box") (kw "Full")) with false. change (text_eqb (T "Box") (kw "Sphere")) with false. change (text_eqb (T "Box") (kw "Box")) with true. cbn [andb].
      unfold argName. cbn [h_params]. change (text_eqb (T "Box") (kw "Full")) with false. change (text_eqb (T "Box") (kw "Sphere")) with false. change (text_eqb (T "Box") (kw "Box")) with true. cbv iota. apply ev_worth in W. now rewrite W.
    + cbn [h_subs]. replace ((length subs =? 0)%nat && text_eqb (argName (Head h ps subs)) (kw "Full")) with false.
      2:{ symmetry. apply andb_false_iff. destruct (Nat.eqb_spec (length subs) 0) as [E|]; [right|now left]. apply length_zero_iff_nil in E. subst subs. unfold argName. cbn [h_params]. destruct ps as [|[a x] ps]; [reflexivity|].
          apply teqb_neq. now apply NA. }
      replace (text_eqb (argName (Head h ps subs)) (kw "Sphere")) with false by (symmetry; unfold argName; cbn [h_params]; destruct ps as [|[a x] ps]; [reflexivity|apply teqb_neq; apply NA]).
      replace (text_eqb (argName (Head h ps subs)) (kw "Box")) with false by (symmetry; unfold argName; cbn [h_params]; destruct ps as [|[a x] ps]; [reflexivity|apply teqb_neq; apply NA]).
      rewrite EL, Nat.eqb_refl. cbn [negb]. rewrite (EVC _ _ F). reflexivity.
    + cbn [h_subs length Nat.eqb andb]. unfold argName. cbn [h_params]. change (text_eqb (T "Sphere") (kw "Sphere")) with true. cbv iota. rewrite EL, Nat.eqb_refl. cbn [negb].
      rewrite (EVP _ _ F). cbn [bind]. apply ev_worth in W. rewrite W. reflexivity.
Qed.
Print Assumptions C92_box.
Example C92_box_case : exists b, read_bounds decimal [(T "w", T "8")] 2 [] (H0 "" [] [H0 "Bounds" [] [H0 "" [("0","");("w","")]%string []; H0 "" [("1","");("w/2","")]%string []]]) = Ok b /\ Forall2 (fun p q : Q * Q => fst p == fst q /\ snd p == snd q) b [(0, 8); (1, 4)].
Proof. eexists. split; [vm_compute; reflexivity|]. repeat constructor. Qed.
Theorem C92_no_bounds : forall number v dims full root, lines "Bounds" root = [] -> read_bounds number v dims full root = Throw.
Proof. intros. unfold read_bounds. now rewrite first_head_lines, H. Qed.
Print Assumptions C92_no_bounds.

(* Boundary conditions *)
Definition bc_names : list (text * bc) := [(T "Wrap", WRAP); (T "Reflect", REFL); (T "Repulse", REPL); (T "Open", OPEN)].
Ltac bc_cases := intros H; repeat (destruct H as [H|H]; [first [now (injection H as <-)|exfalso; apply (f_equal fst) in H; vm_compute in H; discriminate H]|]); contradiction.
Lemma choose_bc_spec t b : choose_bc t = Ok b <-> In (t, b) bc_names.
Proof.
  unfold choose_bc. cbn [bc_names In]. rewrite !teqb_dec.
  destruct (list_eq_dec ascii_dec t (kw "Wrap")) as [->|]; [split; [intros H; injection H as <-; auto|bc_cases]|].
  destruct (list_eq_dec ascii_dec t (kw "Reflect")) as [->|]; [split; [intros H; injection H as <-; auto|bc_cases]|].
  destruct (list_eq_dec ascii_dec t (kw "Repulse")) as [->|]; [split; [intros H; injection H as <-; auto|bc_cases]|].
  destruct (list_eq_dec ascii_dec t (kw "Open")) as [->|]; [split; [intros H; injection H as <-; auto|bc_cases]|].
  split; [discriminate|]. intros H. destruct H as [H|[H|[H|[H|[]]]]]; injection H as <- _; contradiction.
Qed.
Lemma choose_bc_total t : (exists b, choose_bc t = Ok b) \/ choose_bc t = Throw.
Proof. unfold choose_bc. repeat destruct (text_eqb t _); eauto. Qed.
(* none: all wrap; one name: all the same; one line for each dimension: in the order of the file. Partial: the lines all have the same heading (as the empty one of ": Wrap") *)
Theorem C92_boundary_partial : forall dims root,
  (lines "Boundary" root = [] -> read_bcs dims root = Ok (repeat WRAP dims)) /\
  (forall l rest, lines "Boundary" root = l :: rest -> first_text l <> [] ->
     (forall b, In (first_text l, b) bc_names -> read_bcs dims root = Ok (repeat b dims)) /\ ((forall b, ~ In (first_text l, b) bc_names) -> read_bcs dims root = Throw)) /\
  (forall h ps subs rest, lines "Boundary" root = Head h ps subs :: rest -> first_text (Head h ps subs) = [] ->
     (length subs <> dims -> read_bcs dims root = Throw) /\
     (forall name bs, length subs = dims -> Forall (fun c => match c with Head n _ _ => n = name end) subs -> Forall2 (fun c b => In (first_text c, b) bc_names) subs bs -> read_bcs dims root = Ok bs)).
Proof.
  intros dims root. unfold read_bcs. rewrite first_head_lines. split; [intros ->; reflexivity|]. split.
  - intros l rest -> HN. cbn [hd_error]. replace (argName l) with (first_text l) by (destruct l as [h [|[a b] ps] subs]; reflexivity).
    destruct (first_text l) as [|c t] eqn:E; [contradiction|]. split.
    + intros b Hb. apply choose_bc_spec in Hb. now rewrite Hb.
    + intros HB. destruct (choose_bc_total (c :: t)) as [(b & Hb)|Hb]; [apply choose_bc_spec in Hb; exfalso; exact (HB b Hb)|now rewrite Hb].
  - intros h ps subs rest -> HE. cbn [hd_error]. replace (argName (Head h ps subs)) with (@nil ascii) by (rewrite <- HE; destruct ps as [|[a b] ps]; reflexivity). cbn [h_subs]. split.
    + intros HL. destruct (Nat.eqb_spec (length subs) dims); [contradiction|reflexivity].
    + intros name bs HL HS HB. destruct (Nat.eqb_spec (length subs) dims); [|contradiction]. rewrite (sorted_equal (Head h ps subs) name); [|intros c Hc; cbn [h_subs] in Hc; rewrite Forall_forall in HS; specialize (HS c Hc); destruct c; exact HS].
      cbn [h_subs]. eapply map_res_ok; [|exact HB]. cbn beta. intros c b Hb. apply choose_bc_spec. replace (argName c) with (first_text c); [exact Hb|]. destruct c as [h' [|[a' b'] ps'] subs']; reflexivity.
Qed.
Print Assumptions C92_boundary_partial.
Example C92_boundary_case : read_bcs 3 (H0 "" [] [H0 "Boundary" [] [H0 "" [("Open","")]%string []; H0 "" [("Wrap","")]%string []; H0 "" [("Reflect","")]%string []]]) = Ok [OPEN; WRAP; REFL].
Proof. vm_compute. reflexivity. Qed.
(* lines with different headings are taken in the order of the alphabet: here x is the second line of the file but gets dimension 0 *)
Theorem C92_boundary_order_refuted : read_bcs 2 (H0 "" [] [H0 "Boundary" [] [H0 "y" [("Open","")]%string []; H0 "x" [("Wrap","")]%string []]]) = Ok [WRAP; OPEN].
Proof. vm_compute. reflexivity. Qed.
Print Assumptions C92_boundary_order_refuted.

(* --- interactions --- *)
Definition heading (n : node) : text := match n with Head h _ _ => h end.
(* The table. Its lines are taken sorted by heading, lines with the same heading in the order of the file; then each pair of types interacts as the last line
   for it says (either order of the types), pairs without a line not at all; lines with the same name share one interaction. A line that does not have the form
   type, type, name (with types and interactions there are) gives an exception. Partial: the parameters of an interaction are those of the first line with its name, whatever
   a later line says. *)
Theorem C93_table_partial : forall cutoff number v dims ntypes rnd root h ps subs rest, lines "Force-grid" root = Head h ps subs :: rest -> subs <> [] -> length ps <> 1%nat ->
  exists ls, Permutation ls subs /\ (forall i j a b, (i < j)%nat -> nth_error ls i = Some a -> nth_error ls j = Some b -> ~ before (heading b) (heading a)) /\
    (forall name, filter (fun c => if list_eq_dec ascii_dec (heading c) name then true else false) ls = filter (fun c => if list_eq_dec ascii_dec (heading c) name then true else false) subs) /\
    (forall table, Forall2 (reads number v) ls table -> Forall (sound_entry ntypes dims) table ->
      exists m fm ss, read_interactions cutoff number v dims (Z.of_nat ntypes) rnd root = Ok (m, fm) /\ NoDup (map fst m) /\
        Forall2 (fun e s => s_a s = e_a e /\ s_b s = e_b e /\ s_refl s = true /\
          ((e_name e = T "None" /\ s_it s = None) \/
           (e_name e <> T "None" /\ exists i n, s_it s = Some i /\ first_line table (e_name e) = Some n /\ nth_error m i = Some (e_name e, n)))) table ss /\
        (forall a b, (a < ntypes)%nat -> (b < ntypes)%nat -> in_force ss a b (getInteraction (Z.of_nat a) (Z.of_nat b) fm))) /\
    (forall pre n post table, ls = pre ++ n :: post -> Forall2 (reads number v) pre table -> Forall (sound_entry ntypes dims) table -> defective number v ntypes dims n ->
      read_interactions cutoff number v dims (Z.of_nat ntypes) rnd root = Throw).
Proof.
  intros cutoff number v dims ntypes rnd root h ps subs rest HL HS HP. exists (sorted_heads (Head h ps subs)).
  assert (HD : forall n, heading n = h_name n) by (intros [? ? ?]; reflexivity).
  assert (R : read_interactions cutoff number v dims (Z.of_nat ntypes) rnd root = read_grid cutoff number v dims (Z.of_nat ntypes) (sorted_heads (Head h ps subs)) [] [] (new_fm ntypes)).
  { unfold read_interactions. rewrite first_head_lines, HL, Nat2Z.id. cbn [hd_error h_subs h_params]. destruct (Z.ltb_spec (Z.of_nat ntypes) 0); [lia|].
    destruct (Nat.eqb_spec (length subs) 0) as [E|]; [apply length_zero_iff_nil in E; contradiction|]. destruct (Nat.eqb_spec (length ps) 1); [contradiction|]. reflexivity. }
  assert (OK0 : seen_ok [] [] []) by (intros t; reflexivity).
  split; [apply (sorted_perm (Head h ps subs))|]. split; [intros i j a b; rewrite !HD; apply sorted_order|]. split.
  { intros name. assert (E := sorted_same (Head h ps subs) name). cbn [h_subs] in E. transitivity (filter (fun c => text_eqb (h_name c) name) (sorted_heads (Head h ps subs))); [|rewrite E]; apply filter_ext; intros [h' ps' subs']; [symmetry|]; apply teqb_dec. }
  split.
  - intros table F ST. destruct (read_grid_spec cutoff number v dims ntypes _ _ F [] [] [] (new_fm ntypes) ST OK0 (new_well ntypes) (NoDup_nil _) (fun t H => match H with end)) as (m & fm & ss & seen' & R1 & _ & R2 & R3 & R4).
    cbn [app] in *. specialize (R1 []). rewrite app_nil_r in R1. exists m, fm, ss. split; [rewrite R, R1; reflexivity|]. split; [exact R3|]. split; [exact R4|].
    assert (HV : valid_types ntypes ss).
    { clear - R4 ST. intros s Hs. revert R4. generalize table at 1 as tb. intros tb R4. induction R4 as [|e s' table' ss' (A & B & _) R4 IH]; [destruct Hs|]. inversion ST as [|? ? (Sa & Sb & _) ST']; subst. destruct Hs as [<-|Hs]; [rewrite A, B; auto|now apply IH]. }
    destruct (settings_spec cutoff ntypes ss HV) as (fm' & E' & (W1 & _) & G & _). assert (fm' = fm) by congruence. subst fm'.
    intros a b Ha Hb. unfold getInteraction. rewrite W1. destruct (Z.leb_spec (Z.of_nat ntypes) (Z.of_nat a)); [lia|]. destruct (Z.leb_spec (Z.of_nat ntypes) (Z.of_nat b)); [lia|].
    destruct (Z.ltb_spec (Z.of_nat a) 0); [lia|]. destruct (Z.ltb_spec (Z.of_nat b) 0); [lia|]. cbn [orb]. rewrite !Nat2Z.id. apply G.
  - intros pre n post table E F ST D. rewrite R, E.
    destruct (read_grid_spec cutoff number v dims ntypes _ _ F [] [] [] (new_fm ntypes) ST OK0 (new_well ntypes) (NoDup_nil _) (fun t H => match H with end)) as (m & fm & ss & seen' & R1 & R0 & _).
    rewrite R1. eapply read_grid_bad; [exact ST|exact R0|exact D].
Qed.
Print Assumptions C93_table_partial.
(* An example: : 0,1,HardSphere / : 1,1,LennardJones / : 1,0,Hertz, three types *)
Definition grid_file : node := H0 "" [] [H0 "Force-grid" [] [H0 "" [("0","");("1","");("HardSphere","")]%string []; H0 "" [("1","");("1","");("f","")]%string []; H0 "" [("1","");("0","");("Hertz","")]%string []; H0 "" [("2","");("1","");("HardSphere","")]%string []]].
Example C93_table_case : exists m fm, read_interactions (fun _ => 1) decimal_int [(T "f", T "LennardJones")] 2 3 (fun _ => 0) grid_file = Ok (m, fm) /\ map fst m = [T "HardSphere"; T "LennardJones"; T "Hertz"] /\
  map (fun p => getInteraction (fst p) (snd p) fm) [(0, 1); (1, 0); (1, 1); (1, 2); (0, 2)]%Z = [Some 2; Some 2; Some 1; Some 0; None]%nat.
Proof. eexists. eexists. split; [vm_compute; reflexivity|]. split; vm_compute; reflexivity. Qed.
Example C93_table_reads : exists table, Forall2 (reads decimal_int [(T "f", T "LennardJones")]) [H0 "" [("0","");("1","");("HardSphere","")]%string []; H0 "" [("1","");("1","");("f","")]%string []] table /\ Forall (sound_entry 3 2) table.
Proof.
  exists [mkEntry (H0 "" [("0","");("1","");("HardSphere","")]%string []) 0 1 (T "HardSphere"); mkEntry (H0 "" [("1","");("1","");("f","")]%string []) 1 1 (T "LennardJones")].
  split.
  - constructor; [split; [reflexivity|]; exists (T "0"), [], (T "1"), [], (T "HardSphere"), []; repeat split; vm_compute; reflexivity|].
    constructor; [|constructor]. split; [reflexivity|]; exists (T "1"), [], (T "1"), [], (T "f"), []; repeat split; vm_compute; reflexivity.
  - constructor; [|constructor; [|constructor]]; (split; [cbn; lia|]; split; [cbn; lia|]; right; left; split; [cbn; tauto|lia]).
Qed.
(* a second line with the same name keeps the parameters of the first: types 1 and 1 use the interaction made from the line with strength 10 *)
Definition line_10 : node := H0 "" [("0","");("0","");("HardSphere","")]%string [H0 "Repulsion" [("10","")]%string []].
Definition line_99 : node := H0 "" [("1","");("1","");("HardSphere","")]%string [H0 "Repulsion" [("99","")]%string []].
Theorem C93_parameters_refuted : exists fm, read_interactions (fun _ => 1) decimal_int [] 2 2 (fun _ => 0) (H0 "" [] [H0 "Force-grid" [] [line_10; line_99]]) = Ok ([(T "HardSphere", line_10)], fm) /\
  getInteraction 1 1 fm = Some 0%nat /\ line_99 <> line_10.
Proof. eexists. split; [vm_compute; reflexivity|]. split; [vm_compute; reflexivity|]. intros E. vm_compute in E. discriminate E. Qed.
Print Assumptions C93_parameters_refuted.
(* lines with headings are not taken in the order of the file: the line b, written first, counts last *)
Theorem C93_table_order_refuted : exists m fm, read_interactions (fun _ => 1) decimal_int [] 2 1 (fun _ => 0)
    (H0 "" [] [H0 "Force-grid" [] [H0 "b" [("0","");("0","");("Hertz","")]%string []; H0 "a" [("0","");("0","");("HardSphere","")]%string []]]) = Ok (m, fm) /\
  exists i, getInteraction 0 0 fm = Some i /\ option_map fst (nth_error m i) = Some (T "Hertz").
Proof. eexists. eexists. split; [vm_compute; reflexivity|]. exists 1%nat. split; vm_compute; reflexivity. Qed.
Print Assumptions C93_table_order_refuted.

Lemma set_all_spec cutoff n it : exists fm, set_all cutoff it (new_fm n) = Ok fm /\ forall a b, (a < n)%nat -> (b < n)%nat -> getInteraction (Z.of_nat a) (Z.of_nat b) fm = it.
Proof. destruct (Properties_Handlers.C24_set_all cutoff n it) as (fm & E & G). exists fm. split; [unfold set_all; now rewrite E|exact G]. Qed.
(* One interaction for all pairs of types: the name (or the variable) after Force-grid *)
Theorem C93_one_for_all : forall cutoff number v dims ntypes rnd root l rest, lines "Force-grid" root = l :: rest ->
  (match l with Head _ ps subs => (subs = [] /\ first_text l <> T "Random") \/ (subs <> [] /\ length ps = 1%nat) end) ->
  let name := interaction_name v (first_text l) in let result := read_interactions cutoff number v dims (Z.of_nat ntypes) rnd root in
  (available name dims -> exists fm, result = Ok ([(name, l)], fm) /\ forall a b, (a < ntypes)%nat -> (b < ntypes)%nat -> getInteraction (Z.of_nat a) (Z.of_nat b) fm = Some 0%nat) /\
  (name = T "None" -> exists fm, result = Ok ([], fm) /\ forall a b, (a < ntypes)%nat -> (b < ntypes)%nat -> getInteraction (Z.of_nat a) (Z.of_nat b) fm = None) /\
  (name <> T "None" -> ~ available name dims -> result = Throw).
Proof.
  intros cutoff number v dims ntypes rnd root l rest HL HC name result.
  assert (R : result = (do (it, m) <- get_interaction name l dims []; do fm' <- set_all cutoff it (new_fm ntypes); Ok (m, fm'))).
  { unfold result, read_interactions. rewrite first_head_lines, HL, Nat2Z.id. cbn [hd_error]. destruct (Z.ltb_spec (Z.of_nat ntypes) 0); [lia|]. cbv zeta. rewrite via_name.
    replace (argName l) with (first_text l) by (destruct l as [h [|[a b] ps] subs]; reflexivity). fold name.
    destruct l as [h ps subs]. cbn [h_subs h_params]. destruct HC as [[-> HR]|[HS HP]].
    - cbn [length Nat.eqb]. change (kw "Random") with (T "Random"). rewrite (teqb_neq _ _ HR). reflexivity.
    - destruct (Nat.eqb_spec (length subs) 0) as [E|]; [apply length_zero_iff_nil in E; contradiction|]. rewrite HP. reflexivity. }
  clearbody result. rewrite R. unfold get_interaction. split; [|split].
  - intros A. destruct (choose_available _ _ A) as [_ C]. rewrite C. cbn [bind length app]. destruct (set_all_spec cutoff ntypes (Some 0%nat)) as (fm & E & G). rewrite E. exists fm. auto.
  - intros ->. rewrite choose_none. cbn [bind]. destruct (set_all_spec cutoff ntypes None) as (fm & E & G). rewrite E. exists fm. auto.
  - intros N A. now rewrite (choose_other _ _ N A).
Qed.
Print Assumptions C93_one_for_all.
Example C93_one_case : exists fm, read_interactions (fun _ => 1) decimal_int [(T "f", T "Hertz")] 3 2 (fun _ => 0) (H0 "" [] [H0 "Force-grid" [("f","")]%string []]) = Ok ([(T "Hertz", H0 "Force-grid" [("f","")]%string [])], fm) /\ getInteraction 1 0 fm = Some 0%nat.
Proof. eexists. split; [vm_compute; reflexivity|reflexivity]. Qed.
(* Random: every pair of types gets one of three interactions, by a random number of its own *)
Theorem C93_random : forall cutoff number v dims ntypes rnd root l rest, lines "Force-grid" root = l :: rest ->
  (match l with Head _ _ subs => subs = [] end) -> first_text l = T "Random" -> (1 <= dims <= 4)%nat ->
  exists m fm pairs, read_interactions cutoff number v dims (Z.of_nat ntypes) rnd root = Ok (m, fm) /\ map fst m = [T "HardSphere"; T "LennardJones"; T "Coulomb"] /\
    NoDup pairs /\ (forall a b, In (a, b) pairs <-> (a <= b < ntypes)%nat) /\
    forall k a b, nth_error pairs k = Some (a, b) -> exists c, third (rnd k) c /\ getInteraction (Z.of_nat a) (Z.of_nat b) fm = Some c /\ getInteraction (Z.of_nat b) (Z.of_nat a) fm = Some c.
Proof.
  intros cutoff number v dims ntypes rnd root l rest HL HC HR HD. destruct (grid_random cutoff rnd ntypes) as (fm & E & G).
  exists [(T "HardSphere", Head [] [] []); (T "LennardJones", Head [] [] []); (T "Coulomb", Head [] [] [])], fm, (random_pairs ntypes).
  split; [|split; [reflexivity|]; split; [apply random_pairs_nodup|]; split; [apply random_pairs_in|exact G]].
  unfold read_interactions. rewrite first_head_lines, HL, Nat2Z.id. cbn [hd_error]. destruct (Z.ltb_spec (Z.of_nat ntypes) 0); [lia|]. cbv zeta.
  replace (argName l) with (first_text l) by (destruct l as [h [|[a b] ps] subs]; reflexivity). rewrite HR. destruct l as [h ps subs]. subst subs. cbn [h_subs length Nat.eqb].
  change (kw "Random") with (T "Random"). rewrite teqb_refl. unfold get_interaction.
  assert (A : forall s, In (T s) [T "HardSphere"; T "HardSphereDs"; T "LennardJones"; T "Coulomb"; T "Buckingham"; T "Hertz"; T "Hooke"] -> choose (kw s) dims = Ok true) by (intros s Hs; apply choose_available; left; auto).
  rewrite (A "HardSphere"%string) by (cbn; tauto). cbn [bind]. rewrite (A "LennardJones"%string) by (cbn; tauto). cbn [bind]. rewrite (A "Coulomb"%string) by (cbn; tauto). cbn [bind length app]. rewrite E. reflexivity.
Qed.
Print Assumptions C93_random.
Example C93_random_case : exists m fm, read_interactions (fun _ => 1) decimal_int [] 2 2 (fun k => nth k [9#10; 1#10; 1#2] 0) (H0 "" [] [H0 "Force-grid" [("Random","")]%string []]) = Ok (m, fm) /\
  map (fun p => getInteraction (fst p) (snd p) fm) [(0, 0); (0, 1); (1, 0); (1, 1)]%Z = [Some 2; Some 0; Some 0; Some 1]%nat.
Proof. eexists. eexists. split; vm_compute; reflexivity. Qed.
(* no Force-grid line, or a negative number of types: an exception *)
Theorem C93_absent : forall cutoff number v dims ntypes rnd root, lines "Force-grid" root = [] \/ (ntypes < 0)%Z -> read_interactions cutoff number v dims ntypes rnd root = Throw.
Proof.
  intros cutoff number v dims ntypes rnd root H. unfold read_interactions. rewrite first_head_lines. destruct (Z.ltb_spec ntypes 0) as [|]; [reflexivity|]. destruct H as [->|]; [reflexivity|lia].
Qed.
Print Assumptions C93_absent.
Theorem C93_number_of_types : forall number v root, (silent "NTypes" root -> read_ntypes number v root = 1%Z) /\ (forall a, first_says "NTypes" root a -> read_ntypes number v root = number (meant v a)).
Proof. intros. unfold read_ntypes. split; [intros H; now rewrite (first_int_silent _ _ _ _ H)|intros a H; now rewrite (first_int _ _ _ _ _ H)]. Qed.
Print Assumptions C93_number_of_types.

(* --- single particles --- *)
Lemma numbers_vec number v name n xs : numbers number v name n xs -> firstArgVec number v (kw name) n = Ok (Some xs).
Proof.
  intros (h & ps & subs & rest & E & N & F). unfold firstArgVec. rewrite first_head_lines, E. cbn [hd_error h_params]. destruct ps as [|p ps]; [contradiction|].
  rewrite (map_res_ok _ (fun p : text * text => worth number v (fst p))) with (l' := xs); [reflexivity| |exact F]. intros a b H. now apply ev_worth.
Qed.
Lemma inverse_ok q : ~ q == 0 -> exists im, inverse q = Ok im /\ im * q == 1.
Proof. intros H. unfold inverse. destruct (Qeq_bool q 0) eqn:E; [apply Qeq_bool_iff in E; contradiction|]. exists (1 / q). split; [reflexivity|]. field. exact H. Qed.
(* a particle with position, velocity, radius, type and mass as the lines say; the modifiers CV hold its velocity constant.
   Partial: as many numbers as dimensions (or more; the rest are ignored), a radius, and no modifier CV-D; see the refutations *)
Theorem C94_particle_partial : forall number numberz v volume dims gid n xs ws s sigma m,
  numbers number v "Position" n xs -> numbers number v "Velocity" n ws -> (dims <= length xs)%nat -> (dims <= length ws)%nat ->
  first_says "Sigma" n s -> worth number v s sigma -> inverse_mass number v (volume sigma) n m -> Forall (fun l => first_text l = T "CV") (lines "Modifier" n) ->
  exists im ty, create_particle number numberz v volume dims gid n = Ok (mkNew (firstn dims xs) (firstn dims ws) sigma im ty, repeat (CV gid (firstn dims ws)) (length (lines "Modifier" n))) /\
    im == m /\ (silent "Type" n -> ty = 0%Z) /\ (forall a, first_says "Type" n a -> ty = numberz (meant v a)).
Proof.
  intros number numberz v volume dims gid n xs ws s sigma m HX HV LX LV HS WS HM HC.
  assert (EM : exists im, read_mass number v volume sigma n = Ok im /\ im == m).
  { unfold read_mass. rewrite first_head_lines.
    assert (INV : forall q i, i * q == 1 -> exists im, inverse q = Ok im /\ im == i).
    { intros q i Hi. assert (NZ : ~ q == 0) by (intros Z; rewrite Z in Hi; lra). destruct (inverse_ok q NZ) as (im & E & P). exists im. split; [exact E|].
      apply (Qmult_inj_r _ _ q NZ). now rewrite P, Hi. }
    destruct HM as [im E P|l rest E F|l rest d q im E SY ND W P|l rest a b q im E SY N1 N2 W P]; rewrite E; cbn [hd_error].
    - now apply INV.
    - replace (argName l) with (first_text l) by (destruct l as [h [|[a b] ps] subs]; reflexivity). rewrite F. change (text_eqb (T "inf") (kw "inf")) with true. exists 0. split; reflexivity.
    - destruct l as [h ps subs]. destruct SY as (r & ->). unfold argName. cbn [h_params]. change (text_eqb (T "Density") (kw "inf")) with false. change (text_eqb (T "Density") (kw "Density")) with true. cbv iota.
      unfold val_real. cbn [h_params]. destruct d as [|c d]; [contradiction|]. apply ev_worth in W. rewrite W. cbn [bind]. now apply INV.
    - destruct l as [h ps subs]. destruct SY as (r & ->). unfold argName. cbn [h_params]. change (kw "inf") with (T "inf"). change (kw "Density") with (T "Density"). rewrite (teqb_neq _ _ N1), (teqb_neq _ _ N2).
      unfold arg_real. cbn [h_params]. rewrite (cast_meant (ev number v)). apply ev_worth in W. rewrite W. cbn [bind]. now apply INV. }
  destruct EM as (im & EM & EI).
  set (ty := match firstArg_int numberz v (kw "Type") n with Some t => t | None => 0%Z end).
  exists im, ty. split.
  - unfold create_particle.
    assert (NH : existsb (fun h => match heads h n with [] => true | _ => false end) [kw "Position"; kw "Velocity"; kw "Sigma"] = false).
    { cbn [existsb]. rewrite !heads_lines. destruct HX as (? & ? & ? & ? & -> & _). destruct HV as (? & ? & ? & ? & -> & _). destruct HS as (_ & ? & ? & ? & -> & _). reflexivity. }
    rewrite NH, (numbers_vec _ _ _ _ _ HX). cbn [bind]. rewrite (numbers_vec _ _ _ _ _ HV). cbn [bind]. rewrite (first_real _ _ _ _ _ _ HS WS). cbn [bind]. fold ty. cbv zeta. rewrite EM. cbn [bind].
    unfold take_vec. destruct (Nat.ltb_spec (length xs) dims); [lia|]. cbn [bind]. destruct (Nat.ltb_spec (length ws) dims); [lia|]. cbn [bind]. rewrite heads_lines.
    rewrite (map_res_ok _ (fun l p => first_text l = T "CV" /\ p = CV gid (firstn dims ws))) with (l' := repeat (CV gid (firstn dims ws)) (length (lines "Modifier" n))); [reflexivity| |].
    + intros l p [F ->]. unfold read_pmod. replace (argName l) with (first_text l) by (destruct l as [h [|[a b] ps] subs]; reflexivity). rewrite F. reflexivity.
    + clear -HC. induction HC as [|l ls F HC IH]; cbn [length repeat]; constructor; auto.
  - split; [exact EI|]. unfold ty. split; [intros H; now rewrite (first_int_silent _ _ _ _ H)|intros a H; now rewrite (first_int _ _ _ _ _ H)].
Qed.
Print Assumptions C94_particle_partial.
Definition particle_file (pos : list (string * string)) (mods : list node) : node :=
  H0 "Particle" [] ([H0 "Position" pos []; H0 "Velocity" [("1","");("-2","")]%string []; H0 "Sigma" [("r/2","")]%string []; H0 "Mass" [("Density","4")]%string []; H0 "Type" [("1","")]%string []] ++ mods).
Example C94_case : exists p ms, create_particle decimal decimal_int [(T "r", T "1")] (fun s => s * s * 3) 2 7 (particle_file [("0.5","");("r","")]%string [H0 "Modifier" [("CV","")]%string []]) = Ok (p, ms) /\ ms = [CV 7 (n_v p)] /\
  Forall2 Qeq (n_x p) [1#2; 1] /\ Forall2 Qeq (n_v p) [1; -2 # 1] /\ n_sg p == 1#2 /\ n_im p == 1#3 /\ n_type p = 1%Z.
Proof. eexists. eexists. split; [vm_compute; reflexivity|]. split; [reflexivity|]. split; [repeat constructor|]. split; [repeat constructor|]. split; [reflexivity|]. split; reflexivity. Qed.
(* The distance of the modifier CV-D is not read from the file: whatever is written after CV-D, the text CV-D itself is evaluated, which gives 0 *)
Theorem C94_distance_refuted : forall (d : text), exists p ms z, create_particle decimal decimal_int [(T "r", T "1")] (fun s => s * s * 3) 2 7
    (particle_file [("0.5","");("r","")]%string [Head (T "Modifier") [(T "CV-D", []); (d, [])] []]) = Ok (p, ms) /\ ms = [CVD 7 (n_v p) z] /\ z == 0.
Proof.
  intros d. unfold create_particle. match goal with |- context [existsb ?f ?l] => replace (existsb f l) with false by (vm_compute; reflexivity) end.
  match goal with |- context [heads (kw "Modifier") ?n] => replace (heads (kw "Modifier") n) with [Head (T "Modifier") [(T "CV-D", []); (d, [])] []] by (vm_compute; reflexivity) end.
  eexists. eexists. eexists. split; [vm_compute; reflexivity|]. split; reflexivity.
Qed.
Print Assumptions C94_distance_refuted.
(* A position with too few numbers is not refused: memory outside of it is read *)
Theorem C94_short_position_refuted : create_particle decimal decimal_int [(T "r", T "1")] (fun s => s * s * 3) 2 7 (particle_file [("0.5","")]%string []) = Crash.
Proof. vm_compute. reflexivity. Qed.
Print Assumptions C94_short_position_refuted.
(* A radius line without a number leaves the radius uninitialised *)
Theorem C94_no_radius_refuted : create_particle decimal decimal_int [] (fun s => s * s * 3) 1 7 (H0 "Particle" [] [H0 "Position" [("1","")]%string []; H0 "Velocity" [("1","")]%string []; H0 "Sigma" [] []]) = Crash.
Proof. vm_compute. reflexivity. Qed.
Print Assumptions C94_no_radius_refuted.
(* A particle needs a position, a velocity and a radius *)
Theorem C94_needed : forall number numberz v volume dims gid n, lines "Position" n = [] \/ lines "Velocity" n = [] \/ lines "Sigma" n = [] -> create_particle number numberz v volume dims gid n = Throw.
Proof. intros number numberz v volume dims gid n H. unfold create_particle. cbn [existsb]. rewrite !heads_lines. destruct H as [->|[->| ->]]; cbn; [reflexivity|destruct (lines "Position" n); reflexivity|destruct (lines "Position" n); destruct (lines "Velocity" n); reflexivity]. Qed.
Print Assumptions C94_needed.

(* --- integrators --- *)
Definition kinds : list (text * ikind) := [(T "VelocityVerlet", VelocityVerlet); (T "OverdampedIntegrator", Overdamped); (T "OverdampedLangevin", OverdampedLangevin); (T "LangevinIntegrator", Langevin); (T "NoseHooverVelocityVerlet", NoseHoover)].
(* The integrator is the one named (velocity Verlet if there is none), its settings are those given or the defaults: rebuild checks every 10 steps, time steps between
   1e-6 and 0.002, adjusted, by velocities and not by accelerations, 1e-4 at first *)
Theorem C95_settings : forall number numberz flag v dims root l rest k delay mx mn adj usev usea, (1 <= dims <= 4)%nat ->
  lines "Integrator" root = l :: rest -> In (first_text l, k) kinds ->
  set_to (fun a z => z = Z.max 0 (numberz (meant v a))) "Number" l 10%Z delay ->
  set_to (fun a q => exists x, worth number v a x /\ ((0 < x /\ q = x) \/ (x <= 0 /\ q = 2 # 1000))) "MaxDT" l (2 # 1000) mx ->
  set_to (fun a q => exists x, worth number v a x /\ ((0 < x /\ q = x) \/ (x <= 0 /\ q = 1 # 1000000))) "MinDT" l (1 # 1000000) mn ->
  set_to (fun a b => b = flag (meant v a)) "Adjust" l true adj -> set_to (fun a b => b = flag (meant v a)) "UseV" l true usev -> set_to (fun a b => b = flag (meant v a)) "UseA" l false usea ->
  (forall t w, k = OverdampedLangevin \/ k = Langevin -> set_to (fun a x => exists q, worth number v a q /\ x = Some q) "Temperature" l None t -> set_to (fun a x => exists q, worth number v a q /\ x = Some q) "Viscosity" l None w ->
    read_integrator number numberz flag v dims root = Ok (mkInteg k t w delay mx mn adj usev usea (1 # 10000))) /\
  (k <> OverdampedLangevin -> k <> Langevin -> read_integrator number numberz flag v dims root = Ok (mkInteg k None None delay mx mn adj usev usea (1 # 10000))).
Proof.
  intros number numberz flag v dims root l rest k delay mx mn adj usev usea HD HL HK S1 S2 S3 S4 S5 S6. unfold read_integrator. rewrite first_head_lines, HL. cbn [hd_error].
  assert (CK : choose_kind (argName l) dims = Ok k).
  { replace (argName l) with (first_text l) by (destruct l as [h [|[a b] ps] subs]; reflexivity). destruct HD as [D1 D2]. apply Nat.leb_le in D1, D2. unfold choose_kind. rewrite D1, D2.
    cbn [kinds In] in HK. repeat (destruct HK as [HK|HK]; [injection HK as <- <-; reflexivity|]). destruct HK. }
  assert (E1 : match firstArg_int numberz v (kw "Number") l with Some z => Z.max 0 z | None => 10%Z end = delay).
  { destruct S1 as [H|a x H ->]; [now rewrite (first_int_silent _ _ _ _ H)|now rewrite (first_int _ _ _ _ _ H)]. }
  assert (RT : forall name d q, set_to (fun a q => exists x, worth number v a x /\ ((0 < x /\ q = x) \/ (x <= 0 /\ q = d))) name l d q ->
     exists r, firstArg_real number v (kw name) l = Ok r /\ (match r with Some q => if Qltb 0 q then q else d | None => d end) = q).
  { intros name d q [H|a x H (y & W & C)]; [exists None; split; [now apply first_real_silent|reflexivity]|]. exists (Some y). split; [now apply (first_real _ _ _ _ a)|].
    destruct (Qltb_spec 0 y); destruct C as [[C ->]|[C ->]]; try reflexivity; lra. }
  destruct (RT _ _ _ S2) as (r2 & R2 & E2). destruct (RT _ _ _ S3) as (r3 & R3 & E3).
  assert (FT : forall name d b, set_to (fun a b => b = flag (meant v a)) name l d b -> match first_arg (kw name) l with Some a => cast_bool flag v a | None => d end = b).
  { intros name d b [H|a x H ->]; [now rewrite (first_arg_silent _ _ H)|]. rewrite (first_arg_says _ _ _ H). unfold cast_bool. apply cast_meant. }
  assert (E4 := FT _ _ _ S4). assert (E5 := FT _ _ _ S5). assert (E6 := FT _ _ _ S6).
  assert (OT : forall name x, set_to (fun a x => exists q, worth number v a q /\ x = Some q) name l None x -> firstArg_real number v (kw name) l = Ok x).
  { intros name x [H|a y H (q & W & ->)]; [now apply first_real_silent|now apply (first_real _ _ _ _ a)]. }
  unfold choose_integrator. rewrite CK. cbn [bind]. split.
  - intros t w HK2 ST SV. replace (langevin k) with true by (destruct HK2 as [-> | ->]; reflexivity). rewrite (OT _ _ ST). cbn [bind]. rewrite (OT _ _ SV). cbn [bind]. rewrite R2. cbn [bind]. rewrite R3. cbn [bind].
    cbn [new_integ g_delay g_maxdt g_mindt g_adjust g_usev g_usea g_dt]. rewrite E1, E2, E3, E4, E5, E6. reflexivity.
  - intros N1 N2. replace (langevin k) with false by (destruct k; try reflexivity; contradiction). cbn [bind]. rewrite R2. cbn [bind]. rewrite R3. cbn [bind].
    cbn [new_integ g_delay g_maxdt g_mindt g_adjust g_usev g_usea g_dt]. rewrite E1, E2, E3, E4, E5, E6. reflexivity.
Qed.
Print Assumptions C95_settings.
Theorem C95_default_and_unknown : forall number numberz flag v dims root,
  (lines "Integrator" root = [] -> (1 <= dims <= 4)%nat -> read_integrator number numberz flag v dims root = Ok (mkInteg VelocityVerlet None None 10 (2 # 1000) (1 # 1000000) true true false (1 # 10000))) /\
  (forall l rest, lines "Integrator" root = l :: rest -> (forall k, ~ In (first_text l, k) kinds) -> read_integrator number numberz flag v dims root = Throw).
Proof.
  intros number numberz flag v dims root. unfold read_integrator. rewrite first_head_lines. split.
  - intros -> [D1 D2]. apply Nat.leb_le in D1, D2. cbn [hd_error]. now rewrite D1, D2.
  - intros l rest -> HN. cbn [hd_error]. unfold choose_integrator. replace (choose_kind (argName l) dims) with (@Throw ikind); [reflexivity|].
    replace (argName l) with (first_text l) by (destruct l as [h [|[a b] ps] subs]; reflexivity). unfold choose_kind. cbn [kinds In] in HN.
    change (kw "VelocityVerlet") with (T "VelocityVerlet"). change (kw "OverdampedIntegrator") with (T "OverdampedIntegrator"). change (kw "OverdampedLangevin") with (T "OverdampedLangevin").
    change (kw "LangevinIntegrator") with (T "LangevinIntegrator"). change (kw "NoseHooverVelocityVerlet") with (T "NoseHooverVelocityVerlet").
    rewrite !teqb_neq; [reflexivity| | | | |]; intros E; rewrite E in HN; eapply HN; tauto.
Qed.
Print Assumptions C95_default_and_unknown.
Definition flag01 (s : text) : bool := negb (decimal_int s =? 0)%Z.
Definition integ_file : node := H0 "" [] [H0 "Integrator" [("LangevinIntegrator","")]%string [H0 "Temperature" [("kT","")]%string []; H0 "MaxDT" [("-1","")]%string []; H0 "MinDT" [("0.001/10","")]%string []; H0 "Adjust" [("0","")]%string []; H0 "Number" [("-3","")]%string []]].
Example C95_case : exists i, read_integrator decimal decimal_int flag01 [(T "kT", T "2.5")] 3 integ_file = Ok i /\ g_kind i = Langevin /\ (exists q, g_temp i = Some q /\ q == 5#2) /\ g_visc i = None /\
  g_delay i = 0%Z /\ g_maxdt i = (2 # 1000) /\ g_mindt i == 1 # 10000 /\ g_adjust i = false.
Proof. eexists. split; [vm_compute; reflexivity|]. split; [reflexivity|]. split; [eexists; split; [reflexivity|reflexivity]|]. repeat split. Qed.
(* Run by the driver, the file's choice of fixed time steps does not count: unless the command line says otherwise (adjustDT), the time step is adjusted *)
Theorem C95_adjust_refuted : forall i, g_adjust (driver_settings (1 # 1000) (-1) true (-1) i) = true /\ g_dt (driver_settings (1 # 1000) (-1) true (-1) i) = 1 # 1000.
Proof. intros. split; reflexivity. Qed.
Print Assumptions C95_adjust_refuted.
