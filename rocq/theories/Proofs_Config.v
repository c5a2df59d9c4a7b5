From Coq Require Import Ascii String Permutation.
From Verif Require Import Lib Spec_Eval Model_Eval Proofs_Eval Model_FileParse Model_TreeParser Spec_TreeParser Proofs_TreeParser Model_Geometry Model_Fill
  Model_Handlers Spec_Handlers Proofs_ForceMaster Model_Config Spec_Config.
Local Open Scope list_scope.

Lemma teqb_refl a : text_eqb a a = true.
Proof. now apply text_eqb_eq. Qed.
Lemma teqb_dec a b : text_eqb a b = (if list_eq_dec ascii_dec a b then true else false).
Proof. destruct (list_eq_dec ascii_dec a b) as [->|H]; [apply teqb_refl|]. destruct (text_eqb a b) eqn:E; [|reflexivity]. apply text_eqb_eq in E. contradiction. Qed.
Lemma teqb_neq a b : a <> b -> text_eqb a b = false.
Proof. intros H. rewrite teqb_dec. destruct (list_eq_dec ascii_dec a b); [contradiction|reflexivity]. Qed.
Lemma heads_lines s n : heads (kw s) n = lines s n.
Proof. unfold heads, lines. destruct n as [h ps subs]. cbn [h_subs]. apply filter_ext. intros [h' ps' ss']. cbn [h_name]. apply teqb_dec. Qed.
Lemma lookup_var v x : lookup v x = var_of v x.
Proof.
  unfold var_of. induction v as [|[k t] v IH]; [reflexivity|]. cbn [lookup find fst]. rewrite teqb_dec. destruct (list_eq_dec ascii_dec k x); [reflexivity|exact IH].
Qed.
Lemma var_app v w x : var_of (v ++ w) x = match var_of v x with Some t => Some t | None => var_of w x end.
Proof.
  unfold var_of. induction v as [|[k t] v IH]; cbn [app find fst]; [reflexivity|].
  destruct (list_eq_dec ascii_dec k x); [reflexivity|exact IH].
Qed.
Lemma set_adds v name value : adds v name value (set_variable v name value false).
Proof.
  intros x. unfold set_variable. rewrite lookup_var. destruct (var_of v name) as [t|] eqn:E.
  - destruct (var_of v x) as [u|] eqn:F; [reflexivity|]. destruct (list_eq_dec ascii_dec x name) as [->|]; [congruence|reflexivity].
  - rewrite var_app. destruct (var_of v x) as [u|]; [reflexivity|]. unfold var_of. cbn [find fst].
    destruct (list_eq_dec ascii_dec x name) as [->|N]; [destruct (list_eq_dec ascii_dec name name); [reflexivity|contradiction]|].
    destruct (list_eq_dec ascii_dec name x) as [e|]; [symmetry in e; contradiction|reflexivity].
Qed.

(* --- words --- *)
Lemma blank_white c : blank c = true <-> white c.
Proof.
  unfold blank, white. rewrite existsb_exists. split; [intros (x & H & E); apply Ascii.eqb_eq in E; now subst|intros H; exists c; split; [exact H|apply Ascii.eqb_refl]].
Qed.
Lemma word_spec s : exists r, s = word s ++ r /\ Forall (fun c => ~ white c) (word s) /\ match r with [] => True | c :: _ => white c end.
Proof.
  induction s as [|c s (r & E & F & G)]; [exists []; cbn; auto|]. cbn [word]. destruct (blank c) eqn:B.
  - exists (c :: s). split; [reflexivity|]. split; [constructor|]. now apply blank_white.
  - exists r. split; [cbn; now rewrite <- E|]. split; [|exact G]. constructor; [|exact F]. intros W. apply blank_white in W. congruence.
Qed.
Lemma first_word_spec s : (first_word s = [] /\ Forall white s) \/ starts_with_word s (first_word s).
Proof.
  induction s as [|c s IH]; [left; cbn; auto|]. cbn [first_word]. destruct (blank c) eqn:B.
  - apply blank_white in B. destruct IH as [(E & F)|(N & b & r & E & F & G)]; [left; auto|]. right. split; [exact N|].
    exists (c :: b), r. split; [cbn; now rewrite <- E|]. split; [constructor; assumption|exact G].
  - right. destruct (word_spec (c :: s)) as (r & E & F). split; [cbn [word]; rewrite B; discriminate|]. exists [], r. split; [exact E|]. split; [constructor|exact F].
Qed.
Lemma first_word_unique s w : starts_with_word s w -> first_word s = w.
Proof.
  intros (N & b & r & -> & B & W & R). induction B as [|c b Hc B IH]; cbn [app first_word].
  - destruct w as [|c w]; [contradiction|]. cbn [app first_word]. destruct (blank c) eqn:E; [apply blank_white in E; inversion W; contradiction|].
    change (c :: w ++ r) with ((c :: w) ++ r). clear -W R. induction W as [|d w' Hd W IH]; cbn [app word].
    + destruct r as [|d r]; [reflexivity|]. cbn [word]. apply blank_white in R. now rewrite R.
    + destruct (blank d) eqn:E; [apply blank_white in E; contradiction|]. now rewrite IH.
  - apply blank_white in Hc. now rewrite Hc.
Qed.
Lemma first_word_white s : Forall white s -> first_word s = [].
Proof. induction 1 as [|c s H F IH]; [reflexivity|]. cbn [first_word]. apply blank_white in H. now rewrite H. Qed.

(* --- the command line --- *)
Lemma get_line name o : name <> [] -> fst (arg_get name o) = on_command_line (map fst o) name /\
  snd (arg_get name o) = map (fun e : text * text * bool => if text_eqb (fst (fst e)) name then (fst e, true) else e) o.
Proof.
  intros Hn. unfold arg_get, arg_find. cbn [fst snd]. split; [|reflexivity].
  assert (G : forall (o : options) (acc : text * text), fst acc = [] \/ fst acc = name ->
    let opt := fold_left (fun (acc : text * text) (e : text * text * bool) => if text_eqb (fst (fst e)) name then fst e else acc) o acc in
    (match fst opt with [] => None | _ :: _ => match snd opt with [] => Some ["1"%char] | v => Some v end end) =
    match on_command_line (map fst o) name with Some x => Some x | None => match fst acc with [] => None | _ => match snd acc with [] => Some ["1"%char] | v => Some v end end end).
  { induction o0 as [|[[n v] b] o0 IH]; intros acc Ha; [reflexivity|]. cbn [fold_left map fst on_command_line].
    destruct (list_eq_dec ascii_dec n name) as [->|Hne].
    - rewrite teqb_refl. cbv zeta in IH |- *. rewrite IH by (right; reflexivity). cbn [fst snd].
      destruct (on_command_line (map fst o0) name); [reflexivity|]. destruct name; [contradiction|]. destruct v; reflexivity.
    - rewrite teqb_neq by assumption. cbv zeta in IH |- *. rewrite IH by assumption. destruct (on_command_line (map fst o0) name); reflexivity. }
  specialize (G o ([], []) (or_introl eq_refl)). cbv zeta in G |- *. rewrite G. cbn. destruct (on_command_line (map fst o) name); reflexivity.
Qed.
Lemma marks_keep name (o : options) : map fst (map (fun e : text * text * bool => if text_eqb (fst (fst e)) name then (fst e, true) else e) o) = map fst o.
Proof. rewrite map_map. apply map_ext. intros e. destruct (text_eqb (fst (fst e)) name); reflexivity. Qed.
Lemma cl_get_spec o name value : name <> [] -> settled (map fst o) (name, value) (fst (cl_get o name value)) /\
  snd (cl_get o name value) = map (fun e : text * text * bool => if text_eqb (fst (fst e)) name then (fst e, true) else e) o.
Proof.
  intros Hn. destruct (get_line name o Hn) as [G1 G2]. unfold cl_get. destruct (arg_get name o) as [g o']. cbn [fst snd] in *. split; [|exact G2].
  destruct g as [w|]; [|apply FromFile; congruence]. destruct (first_word_spec w) as [[E F]|E].
  - rewrite E. apply (BlankLine _ _ _ w); [congruence|exact F].
  - assert (N : first_word w <> []) by apply E. destruct (first_word w) as [|c x] eqn:X; [contradiction|]. apply (FromLine _ _ _ w); [congruence|exact E].
Qed.
Lemma settled_unique cl d x y : settled cl d x -> settled cl d y -> x = y.
Proof.
  intros Hx Hy. inversion Hx as [n v E|n v w z E W|n v w E W]; subst; inversion Hy as [n' v' E'|n' v' w' z' E' W'|n' v' w' E' W']; subst; try congruence.
  - assert (w = w') by congruence. subst. apply first_word_unique in W. apply first_word_unique in W'. congruence.
  - assert (w = w') by congruence. subst. apply first_word_white in W'. apply first_word_unique in W as X. destruct W as [N _]. congruence.
  - assert (w = w') by congruence. subst. apply first_word_white in W. apply first_word_unique in W' as X. destruct W' as [N _]. congruence.
Qed.

(* --- variables --- *)
Definition mark_names (names : list text) (o : options) : options :=
  map (fun e : text * text * bool => (fst e, snd e || (if in_dec (list_eq_dec ascii_dec) (fst (fst e)) names then true else false))) o.
Lemma mark_cons name names (o : options) : mark_names names (map (fun e : text * text * bool => if text_eqb (fst (fst e)) name then (fst e, true) else e) o) = mark_names (name :: names) o.
Proof.
  unfold mark_names. rewrite map_map. apply map_ext. intros [[n v] b]. cbn [fst snd]. rewrite teqb_dec.
  destruct (list_eq_dec ascii_dec n name) as [->|N]; cbn [fst snd].
  - destruct (in_dec (list_eq_dec ascii_dec) name (name :: names)) as [|X]; [now rewrite orb_true_r|]. exfalso. apply X. now left.
  - f_equal. f_equal. destruct (in_dec (list_eq_dec ascii_dec) n names) as [i|i]; destruct (in_dec (list_eq_dec ascii_dec) n (name :: names)) as [j|j]; try reflexivity.
    + exfalso. apply j. now right.
    + destruct j; [congruence|contradiction].
Qed.
Lemma mark_nil o : mark_names [] o = o.
Proof. unfold mark_names. rewrite <- (map_id o) at 2. apply map_ext. intros [[n v] b]. cbn. now rewrite orb_false_r. Qed.
Lemma mark_fst names o : map fst (mark_names names o) = map fst o.
Proof. unfold mark_names. rewrite map_map. apply map_ext. reflexivity. Qed.
Lemma var_cons name value v x : var_of ((name, value) :: v) x = if list_eq_dec ascii_dec x name then Some value else var_of v x.
Proof.
  unfold var_of. cbn [find fst]. destruct (list_eq_dec ascii_dec x name) as [->|N]; [destruct (list_eq_dec ascii_dec name name); [reflexivity|contradiction]|].
  destruct (list_eq_dec ascii_dec name x) as [e|]; [symmetry in e; contradiction|reflexivity].
Qed.
Lemma read_vars_spec : forall l ds o v, Forall2 says l ds -> Forall (fun d => fst d <> []) ds ->
  exists vs v', Forall2 (settled (map fst o)) ds vs /\ read_vars l o v = Ok (v', mark_names (map fst ds) o) /\
    forall x, var_of v' x = match var_of v x with Some t => Some t | None => var_of (combine (map fst ds) vs) x end.
Proof.
  intros l ds o v H. revert o v. induction H as [|n d l ds Hn H IH]; intros o v Hd.
  - exists [], v. split; [constructor|]. cbn. rewrite mark_nil. split; [reflexivity|]. intros x. destruct (var_of v x); reflexivity.
  - inversion Hd as [|? ? N Hd']; subst. destruct n as [h ps subs], d as [name value]. destruct Hn as (rest & ->). cbn [fst] in N.
    destruct (cl_get_spec o name value N) as [C1 C2]. cbn [read_vars h_params]. destruct (cl_get o name value) as [val o'] eqn:EC. cbn [fst snd] in C1, C2. subst o'.
    destruct (IH (map (fun e : text * text * bool => if text_eqb (fst (fst e)) name then (fst e, true) else e) o) (set_variable v name val false) Hd') as (vs & v' & S1 & S2 & S3).
    rewrite marks_keep in S1. rewrite mark_cons in S2. exists (val :: vs), v'. split; [constructor; assumption|]. cbn [map fst]. split; [exact S2|].
    intros x. rewrite S3, (set_adds v name val x). cbn [combine]. rewrite var_cons. destruct (var_of v x); [reflexivity|]. destruct (list_eq_dec ascii_dec x name); reflexivity.
Qed.
Section Values.
Variables (conv : text -> Q) (show : Q -> text) (cl : list (text * text)).
Lemma read_values_spec : forall l ds o v, Forall2 says l ds -> Forall (fun d => fst d <> []) ds -> map fst o = cl ->
  (exists v', read_values conv show l o v = Ok (v', mark_names (map fst ds) o) /\ value_steps conv show cl ds v v') \/
  (exists pre d post vk x, ds = pre ++ d :: post /\ value_steps conv show cl pre v vk /\ settled cl d x /\
     ((x = [] /\ read_values conv show l o v = Throw) \/ (x <> [] /\ (forall q, evaluate conv vk x <> Gives q) /\ read_values conv show l o v = Crash))).
Proof.
  intros l ds o v H. revert o v. induction H as [|n d l ds Hn H IH]; intros o v Hd Ho.
  - left. exists v. cbn. rewrite mark_nil. split; [reflexivity|constructor].
  - inversion Hd as [|? ? N Hd']; subst. destruct n as [h ps subs], d as [name value]. destruct Hn as (rest & ->). cbn [fst] in N.
    destruct (cl_get_spec o name value N) as [C1 C2]. cbn [read_values h_params]. destruct (cl_get o name value) as [val o'] eqn:EC. cbn [fst snd] in C1, C2. subst o'.
    destruct val as [|c val].
    + right. exists [], (name, value), ds, v, []. split; [reflexivity|]. split; [constructor|]. split; [exact C1|]. left. auto.
    + unfold ev. destruct (evaluate conv v (c :: val)) as [| |q] eqn:EE.
      * right. exists [], (name, value), ds, v, (c :: val). split; [reflexivity|]. split; [constructor|]. split; [exact C1|]. right. split; [discriminate|]. split; [congruence|reflexivity].
      * right. exists [], (name, value), ds, v, (c :: val). split; [reflexivity|]. split; [constructor|]. split; [exact C1|]. right. split; [discriminate|]. split; [congruence|reflexivity].
      * cbn [bind].
        destruct (IH (map (fun e : text * text * bool => if text_eqb (fst (fst e)) name then (fst e, true) else e) o) (set_variable v name (show q) false) Hd') as [(v' & S2 & S3)|(pre & d & post & vk & x & E & S1 & S2 & S3)]; [apply marks_keep| |].
        -- left. exists v'. rewrite mark_cons in S2. split; [exact S2|]. econstructor; [exact C1|discriminate|exact EE|apply set_adds|exact S3].
        -- right. exists ((name, value) :: pre), d, post, vk, x. split; [now rewrite E|]. split; [econstructor; [exact C1|discriminate|exact EE|apply set_adds|exact S1]|]. split; assumption.
Qed.
End Values.

(* --- the lines of a heading --- *)
Definition at_path (n : node) (p : list nat) : node := match node_at n p with Some c => c | None => n end.
Lemma under_top n : map (fun e => (fst e, at_path n (snd e))) (under n []) = map (fun c => (h_name c, c)) (h_subs n).
Proof.
  unfold under. cbn [node_at]. destruct n as [h ps subs]. cbn [h_subs].
  assert (G : forall l k, (forall i, nth_error l i = nth_error subs (k + i)) ->
    map (fun e => (fst e, at_path (Head h ps subs) (snd e))) (combine (map (fun n => match n with Head h0 _ _ => h0 end) l) (map (fun i => [] ++ [i]) (seq k (length l)))) = map (fun c => (h_name c, c)) l).
  { induction l as [|c l IH]; intros k Hk; [reflexivity|]. cbn [map length seq combine app fst snd].
    assert (E : at_path (Head h ps subs) [k] = c).
    { unfold at_path. cbn [node_at h_subs]. specialize (Hk 0%nat). cbn [nth_error] in Hk. rewrite Nat.add_0_r in Hk. now rewrite <- Hk. }
    rewrite E. f_equal. apply (IH (S k)). intros i. specialize (Hk (S i)). cbn [nth_error] in Hk. rewrite Hk. f_equal. lia. }
  apply (G subs 0%nat). reflexivity.
Qed.
Lemma insert_link n : forall m k p, h_name (at_path n p) = k -> Forall (fun e => h_name (at_path n (snd e)) = fst e) m ->
  map (fun e => at_path n (snd e)) (mm_insert k p m) = insert_head (at_path n p) (map (fun e => at_path n (snd e)) m).
Proof.
  intros m k p Hk. induction 1 as [|[k' p'] m He Hm IH]; [reflexivity|]. cbn [mm_insert map insert_head snd fst] in *. rewrite Hk, He.
  destruct (text_ltb k k'); [reflexivity|]. cbn [map snd]. now rewrite IH.
Qed.
Lemma insert_all {A} (P : text * list nat -> Prop) (dummy : A) : forall m k p, P (k, p) -> Forall P m -> Forall P (mm_insert k p m).
Proof. intros m k p H. induction 1 as [|[k' p'] m He Hm IH]; cbn [mm_insert]; [auto|]. destruct (text_ltb k k'); auto. Qed.
Lemma sorted_link n : sorted_heads n = map (fun e => at_path n (snd e)) (sort_all (under n [])).
Proof.
  unfold sorted_heads, sort_all. assert (U := under_top n).
  assert (G : forall (l : list (text * list nat)) subs m, map (fun e => (fst e, at_path n (snd e))) l = map (fun c => (h_name c, c)) subs -> Forall (fun e => h_name (at_path n (snd e)) = fst e) m ->
    fold_left (fun l c => insert_head c l) subs (map (fun e => at_path n (snd e)) m) = map (fun e => at_path n (snd e)) (fold_left (fun (m : multimap) c => mm_insert (fst c) (snd c) m) l m)).
  { induction l as [|[k p] l IH]; intros [|c subs] m E Hm; try discriminate E; [reflexivity|]. cbn [map fst snd] in E. injection E as E1 E2 E3. cbn [fold_left fst snd].
    rewrite <- IH with (subs := subs); [|exact E3|].
    - f_equal. rewrite insert_link; [now rewrite E2|rewrite E2; now symmetry|exact Hm].
    - apply (insert_all _ 0%nat); [cbn [fst snd]; rewrite E2; now symmetry|exact Hm]. }
  apply (G (under n []) (h_subs n) []); [exact U|constructor].
Qed.
Lemma sorted_perm n : Permutation (sorted_heads n) (h_subs n).
Proof.
  rewrite sorted_link. destruct (sort_spec (under n [])) as (_ & P & _).
  apply (Permutation_map (fun e => at_path n (snd e))) in P. etransitivity; [exact P|].
  assert (U := under_top n). apply (f_equal (map snd)) in U. rewrite !map_map in U. cbn [snd] in U. rewrite map_id in U. rewrite <- U. reflexivity.
Qed.
Lemma ltb_before a b : text_ltb a b = true <-> before a b.
Proof.
  split.
  - revert b. induction a as [|x a IH]; intros [|y b] H; cbn [text_ltb] in H; try discriminate; [constructor|].
    apply orb_true_iff in H. destruct H as [H|H]; [apply Nat.ltb_lt in H; now apply BLt|]. apply andb_true_iff in H. destruct H as [H1 H2]. apply Nat.eqb_eq in H1.
    assert (x = y) as -> by (rewrite <- (ascii_nat_embedding x), H1; apply ascii_nat_embedding). apply BEq. now apply IH.
  - induction 1 as [c t|c d s t L|c s t H IH]; cbn [text_ltb]; [reflexivity|apply orb_true_iff; left; now apply Nat.ltb_lt|].
    apply orb_true_iff. right. now rewrite Nat.eqb_refl, IH.
Qed.
Lemma sorted_order n : forall i j a b, (i < j)%nat -> nth_error (sorted_heads n) i = Some a -> nth_error (sorted_heads n) j = Some b -> ~ before (h_name b) (h_name a).
Proof.
  rewrite sorted_link. destruct (sort_spec (under n [])) as (S & P & _).
  assert (F : Forall (fun e => h_name (at_path n (snd e)) = fst e) (sort_all (under n []))).
  { apply Forall_forall. intros e He. apply (Permutation_in _ P) in He. assert (U := under_top n).
    apply (in_map (fun e => (fst e, at_path n (snd e)))) in He. unfold text in *. rewrite U in He. apply in_map_iff in He. destruct He as (c & E & _). injection E as E1 E2. now rewrite <- E2, E1. }
  revert F. clear P. induction S as [|k v m H S IH]; intros F i j a b L Ha Hb; [destruct i; discriminate Ha|]. inversion F as [|? ? F1 F2]; subst. cbn [map snd fst] in *.
  destruct j as [|j]; [lia|]. cbn [nth_error] in Hb. destruct i as [|i].
  - cbn in Ha. injection Ha as <-. rewrite F1. apply nth_error_In, in_map_iff in Hb. destruct Hb as (e & <- & He). rewrite Forall_forall in H, F2.
    rewrite (F2 e He). intros B. apply ltb_before in B. rewrite (H e He) in B. discriminate.
  - eapply (IH F2 i j); [lia|exact Ha|exact Hb].
Qed.
Lemma sorted_same n name : filter (fun c => text_eqb (h_name c) name) (sorted_heads n) = filter (fun c => text_eqb (h_name c) name) (h_subs n).
Proof.
  rewrite sorted_link. destruct (sort_spec (under n [])) as (_ & P & E). specialize (E name).
  assert (U := under_top n).
  assert (F : forall l, Forall (fun e => h_name (at_path n (snd e)) = fst e) l ->
     filter (fun c => text_eqb (h_name c) name) (map (fun e => at_path n (snd e)) l) = map (fun e => at_path n (snd e)) (filter (eqn name) l)).
  { induction 1 as [|e l He Hl IH]; [reflexivity|]. cbn [map filter]. unfold eqn at 1. rewrite He. destruct (text_eqb (fst e) name); cbn [map]; now rewrite IH. }
  assert (FU : Forall (fun e => h_name (at_path n (snd e)) = fst e) (under n [])).
  { apply Forall_forall. intros e He. apply (in_map (fun e => (fst e, at_path n (snd e)))) in He. unfold text in *. rewrite U in He. apply in_map_iff in He. destruct He as (c & X & _). injection X as E1 E2. now rewrite <- E2, E1. }
  rewrite F by (eapply Permutation_Forall; [symmetry; exact P|exact FU]). rewrite E, <- F by exact FU.
  apply (f_equal (map snd)) in U. rewrite !map_map in U. cbn [snd] in U. rewrite map_id in U. rewrite <- U. reflexivity.
Qed.
Lemma filter_all {A} (f : A -> bool) l : (forall x, In x l -> f x = true) -> filter f l = l.
Proof. induction l as [|x l IH]; intros H; [reflexivity|]. cbn [filter]. rewrite H by now left. f_equal. apply IH. intros y Hy. apply H. now right. Qed.
Lemma sorted_equal n name : (forall c, In c (h_subs n) -> h_name c = name) -> sorted_heads n = h_subs n.
Proof.
  intros H. assert (E := sorted_same n name). rewrite (filter_all _ (h_subs n)) in E by (intros x Hx; rewrite (H x Hx); apply teqb_refl).
  rewrite filter_all in E; [exact E|]. intros x Hx. apply (Permutation_in _ (sorted_perm n)) in Hx. rewrite (H x Hx). apply teqb_refl.
Qed.
(* the tree parser visits these lines *)
Lemma named_heads n name : map (node_at n) (named n [] name) = map Some (heads name n).
Proof.
  rewrite named_filter. unfold heads. assert (U := under_top n). revert U.
  assert (V : Forall (fun e => node_at n (snd e) = Some (at_path n (snd e))) (under n [])).
  { unfold under. cbn [node_at]. destruct n as [h ps subs]. apply Forall_forall. intros [k p] He. apply in_combine_r, in_map_iff in He. destruct He as (i & <- & Hi). apply in_seq in Hi.
    cbn [snd app]. unfold at_path. cbn [node_at h_subs]. destruct (nth_error subs i) eqn:E; [reflexivity|]. apply nth_error_None in E. lia. }
  revert V. generalize (under n []) as l. generalize (h_subs n) as subs. intros subs l V. revert subs. induction V as [|[k p] l He V IH]; intros [|c subs] U; try discriminate U; [reflexivity|].
  cbn [map fst snd] in U. injection U as U1 U2 U3. cbn [filter]. unfold eqn at 1. cbn [fst]. rewrite U1. cbn [snd] in He. destruct (text_eqb (h_name c) name); cbn [map snd]; [rewrite He, U2; f_equal|]; now apply IH.
Qed.
Lemma visited_sorted n t : t_begin_all (t_new n) = Some (true, t) -> map (node_at n) (t_list t) = map Some (sorted_heads n).
Proof.
  intros H. unfold t_begin_all in H. change (t_point (t_new n)) with (-1)%Z in H. change (t_list (t_new n)) with (@nil (list nat)) in H. cbn [negb Z.eqb Pos.eqb app] in H.
  assert (E : t_headings (t_new n) = sort_all (under n [])).
  { destruct (reached_inv n (t_new n) (RNew n)) as [(_ & p & Hp & Hh) _]. cbn in Hp. injection Hp as <-. exact Hh. }
  rewrite E in H. destruct (map snd (sort_all (under n []))) as [|p l] eqn:EL; [discriminate|]. injection H as <-. unfold set_focus, sortOptions. cbn [t_list]. rewrite <- EL, sorted_link, !map_map.
  apply map_ext_in. intros e He. destruct (sort_spec (under n [])) as (_ & P & _). apply (Permutation_in _ P) in He.
  clear -He. unfold under in He. cbn [node_at] in He. destruct n as [h ps subs]. destruct e as [k p]. apply in_combine_r, in_map_iff in He. destruct He as (i & <- & Hi). apply in_seq in Hi.
  cbn [snd app]. unfold at_path. cbn [node_at h_subs]. destruct (nth_error subs i) eqn:E; [reflexivity|]. apply nth_error_None in E. lia.
Qed.

(* --- first arguments --- *)
Lemma first_head_lines s n : first_head (kw s) n = hd_error (lines s n).
Proof. unfold first_head. now rewrite heads_lines. Qed.
Lemma first_arg_says s n a : first_says s n a -> first_arg (kw s) n = Some a.
Proof.
  intros (N & l & rest & b & E & S). unfold first_arg. rewrite first_head_lines, E. cbn [hd_error]. destruct l as [h ps subs]. destruct S as (r & ->). cbn [h_params]. destruct a; [contradiction|reflexivity].
Qed.
Lemma first_arg_silent s n : silent s n -> first_arg (kw s) n = None.
Proof.
  unfold silent, first_arg. rewrite first_head_lines. destruct (lines s n) as [|[h ps subs] l]; [reflexivity|]. cbn [hd_error h_params]. destruct ps as [|[a b] ps]; [reflexivity|]. intros ->. reflexivity.
Qed.
Lemma says_or_silent s n : silent s n \/ exists a, first_says s n a.
Proof.
  unfold silent, first_says. destruct (lines s n) as [|[h ps subs] l] eqn:E; [now left|]. destruct ps as [|[a b] ps]; [now left|]. destruct a as [|c a]; [now left|]. right.
  exists (c :: a). split; [discriminate|]. exists (Head h ((c :: a, b) :: ps) subs), l, b. split; [reflexivity|]. exists ps. reflexivity.
Qed.
Lemma cast_meant {A} (f : text -> A) v a : (match lookup v a with Some x => f x | None => f a end) = f (meant v a).
Proof. unfold meant. rewrite lookup_var. destruct (var_of v a); reflexivity. Qed.
Lemma ev_ok conv v s q : evaluate conv v s = Gives q -> ev conv v s = Ok q.
Proof. intros H. unfold ev. now rewrite H. Qed.
Lemma map_res_ok {A B} (f : A -> res B) (P : A -> B -> Prop) : (forall a b, P a b -> f a = Ok b) -> forall l l', Forall2 P l l' -> map_res f l = Ok l'.
Proof. intros H l l' F. induction F as [|a b l l' Hab F IH]; [reflexivity|]. cbn [map_res]. now rewrite (H a b Hab), IH. Qed.
Lemma first_real conv v s n a q : first_says s n a -> evaluate conv v a = Gives q -> firstArg_real conv v (kw s) n = Ok (Some q).
Proof. intros F E. unfold firstArg_real. now rewrite (first_arg_says s n a F), (ev_ok conv v a q E). Qed.
Lemma first_real_silent conv v s n : silent s n -> firstArg_real conv v (kw s) n = Ok None.
Proof. intros F. unfold firstArg_real. now rewrite (first_arg_silent s n F). Qed.
Lemma first_int convz v s n a : first_says s n a -> firstArg_int convz v (kw s) n = Some (convz (meant v a)).
Proof. intros F. unfold firstArg_int. rewrite (first_arg_says s n a F). cbn. f_equal. unfold cast_int. apply (cast_meant convz v a). Qed.
Lemma first_int_silent convz v s n : silent s n -> firstArg_int convz v (kw s) n = None.
Proof. intros F. unfold firstArg_int. now rewrite (first_arg_silent s n F). Qed.

(* --- interactions --- *)
Lemma via_name v t : via_variable v t = interaction_name v t.
Proof. unfold via_variable, interaction_name. rewrite lookup_var. reflexivity. Qed.
Lemma choose_none dims : choose (T "None") dims = Ok false.
Proof. reflexivity. Qed.
Lemma choose_available token dims : available token dims -> token <> T "None" /\ choose token dims = Ok true.
Proof.
  intros [(H & L1 & L2)|(-> & ->)]; [|split; [discriminate|reflexivity]].
  apply Nat.leb_le in L1, L2. cbn [In] in H. repeat (destruct H as [<-|H]; [split; [discriminate|]; unfold choose; cbv -[Nat.leb andb]; rewrite L1, L2; reflexivity|]). destruct H.
Qed.
Lemma choose_other token dims : token <> T "None" -> ~ available token dims -> choose token dims = Throw.
Proof.
  intros N A. unfold choose. change (kw "None") with (T "None"). rewrite (teqb_neq _ _ N). destruct (existsb (text_eqb token) generic) eqn:E.
  - destruct ((1 <=? dims)%nat && (dims <=? 4)%nat) eqn:D; [|reflexivity]. exfalso. apply A. left. apply andb_true_iff in D. rewrite !Nat.leb_le in D. split; [|exact D].
    apply existsb_exists in E. destruct E as (x & Hx & Ex). apply text_eqb_eq in Ex. subst x. exact Hx.
  - destruct (text_eqb token (kw "DemonWall")) eqn:D; [|reflexivity]. apply text_eqb_eq in D. destruct (Nat.eqb_spec dims 2) as [->|]; [|reflexivity]. exfalso. apply A. right. auto.
Qed.
Definition numbered (table : list entry) (m : makes) (e : entry) (it : option nat) : Prop :=
  (e_name e = T "None" /\ it = None) \/ (e_name e <> T "None" /\ exists i n, it = Some i /\ first_line table (e_name e) = Some n /\ nth_error m i = Some (e_name e, n)).
Definition seen_ok (pre : list entry) (seen : list (text * option nat)) (m : makes) : Prop :=
  forall t, match find_token t seen with
    | None => first_line pre t = None
    | Some it => (t = T "None" /\ it = None) \/ (t <> T "None" /\ exists i n, it = Some i /\ first_line pre t = Some n /\ nth_error m i = Some (t, n)) end.
Lemma first_line_app pre e t : first_line (pre ++ [e]) t = match first_line pre t with Some n => Some n | None => if list_eq_dec ascii_dec (e_name e) t then Some (e_line e) else None end.
Proof.
  unfold first_line. induction pre as [|d pre IH]; cbn [app find].
  - destruct (list_eq_dec ascii_dec (e_name e) t); reflexivity.
  - destruct (list_eq_dec ascii_dec (e_name d) t); [reflexivity|exact IH].
Qed.
Lemma first_line_more pre post t n : first_line pre t = Some n -> first_line (pre ++ post) t = Some n.
Proof.
  unfold first_line. induction pre as [|d pre IH]; cbn [app find]; [discriminate|]. destruct (list_eq_dec ascii_dec (e_name d) t); [auto|exact IH].
Qed.
Lemma NoDup_app_snoc {A} (l : list A) x : NoDup l -> ~ In x l -> NoDup (l ++ [x]).
Proof. intros H N. apply NoDup_rev in H. rewrite <- (rev_involutive (l ++ [x])), rev_app_distr. apply NoDup_rev. cbn. constructor; [now rewrite <- in_rev|exact H]. Qed.
Definition given_by (table : list entry) (m : makes) (e : entry) (s : setting) : Prop :=
  s_a s = e_a e /\ s_b s = e_b e /\ s_refl s = true /\ numbered table m e (s_it s).
Lemma nth_error_more {A} (l : list A) more i x : nth_error l i = Some x -> nth_error (l ++ more) i = Some x.
Proof. intros H. rewrite nth_error_app1; [exact H|]. apply nth_error_Some. congruence. Qed.
Lemma numbered_more pre post m more e it : numbered pre m e it -> numbered (pre ++ post) (m ++ more) e it.
Proof.
  intros [H|(N & i & n & H1 & H2 & H3)]; [now left|right]. split; [exact N|]. exists i, n. split; [exact H1|]. split; [now apply first_line_more|now apply nth_error_more].
Qed.
Lemma seen_step pre seen m e : seen_ok pre seen m -> e_name e = T "None" \/ e_name e <> T "None" ->
  NoDup (map fst m) -> (forall t, In t (map fst m) -> find_token t seen <> None) ->
  let it := match find_token (e_name e) seen with Some it => it | None => if list_eq_dec ascii_dec (e_name e) (T "None") then None else Some (length m) end in
  let m' := match find_token (e_name e) seen with Some _ => m | None => if list_eq_dec ascii_dec (e_name e) (T "None") then m else m ++ [(e_name e, e_line e)] end in
  let seen' := match find_token (e_name e) seen with Some _ => seen | None => (e_name e, it) :: seen end in
  seen_ok (pre ++ [e]) seen' m' /\ numbered (pre ++ [e]) m' e it /\ NoDup (map fst m') /\ (forall t, In t (map fst m') -> find_token t seen' <> None) /\ exists more, m' = m ++ more.
Proof.
  intros OK _ ND IN. cbv zeta. assert (O := OK (e_name e)). destruct (find_token (e_name e) seen) as [it|] eqn:E.
  - split; [|split; [|split; [exact ND|split; [exact IN|exists []; now rewrite app_nil_r]]]].
    + intros t. specialize (OK t). destruct (find_token t seen) as [it'|] eqn:Et.
      * destruct OK as [H|(N & i & n & H1 & H2 & H3)]; [now left|right]. split; [exact N|]. exists i, n. split; [exact H1|]. split; [now apply first_line_more|exact H3].
      * rewrite first_line_app, OK. destruct (list_eq_dec ascii_dec (e_name e) t) as [Eq|]; [subst t; congruence|reflexivity].
    + destruct O as [H|(N & i & n & H1 & H2 & H3)]; [now left|right]. split; [exact N|]. exists i, n. split; [exact H1|]. split; [now apply first_line_more|exact H3].
  - assert (FL : first_line (pre ++ [e]) (e_name e) = Some (e_line e)).
    { rewrite first_line_app, O. destruct (list_eq_dec ascii_dec (e_name e) (e_name e)); [reflexivity|contradiction]. }
    destruct (list_eq_dec ascii_dec (e_name e) (T "None")) as [EN|NN].
    + split; [|split; [left; auto|split; [exact ND|split; [|exists []; now rewrite app_nil_r]]]].
      * intros t. cbn [find_token]. rewrite teqb_dec. destruct (list_eq_dec ascii_dec (e_name e) t) as [Eq|Nt]; [subst t; left; auto|].
        specialize (OK t). destruct (find_token t seen) as [it'|] eqn:Et.
        -- destruct OK as [H|(N & i & n & H1 & H2 & H3)]; [now left|right]. split; [exact N|]. exists i, n. split; [exact H1|]. split; [now apply first_line_more|exact H3].
        -- rewrite first_line_app, OK. destruct (list_eq_dec ascii_dec (e_name e) t) as [Eq|]; [subst t; congruence|reflexivity].
      * intros t Ht. cbn [find_token]. destruct (text_eqb (e_name e) t); [discriminate|]. now apply IN.
    + assert (NE : nth_error (m ++ [(e_name e, e_line e)]) (length m) = Some (e_name e, e_line e)) by (rewrite nth_error_app2 by lia; now rewrite Nat.sub_diag).
      split; [|split; [|split; [|split; [|now exists [(e_name e, e_line e)]]]]].
      * intros t. cbn [find_token]. rewrite teqb_dec. destruct (list_eq_dec ascii_dec (e_name e) t) as [<-|Nt].
        -- right. split; [exact NN|]. exists (length m), (e_line e). auto.
        -- specialize (OK t). destruct (find_token t seen) as [it'|] eqn:Et.
           ++ destruct OK as [H|(N & i & n & H1 & H2 & H3)]; [now left|right]. split; [exact N|]. exists i, n. split; [exact H1|]. split; [now apply first_line_more|now apply nth_error_more].
           ++ rewrite first_line_app, OK. destruct (list_eq_dec ascii_dec (e_name e) t) as [Eq|]; [subst t; congruence|reflexivity].
      * right. split; [exact NN|]. exists (length m), (e_line e). auto.
      * rewrite map_app. cbn [map fst]. apply NoDup_app_snoc; [exact ND|]. intros H. apply (IN _ H). exact E.
      * intros t Ht. rewrite map_app in Ht. cbn [find_token]. rewrite teqb_dec. destruct (list_eq_dec ascii_dec (e_name e) t) as [|Nt]; [discriminate|].
        apply in_app_or in Ht. destruct Ht as [Ht|[Ht|[]]]; [now apply IN|contradiction].
Qed.
Lemma read_grid_spec cutoff convz v dims ntypes : forall ls table, Forall2 (reads convz v) ls table -> forall pre seen m fm,
  Forall (sound_entry ntypes dims) table -> seen_ok pre seen m -> well ntypes fm -> NoDup (map fst m) -> (forall t, In t (map fst m) -> find_token t seen <> None) ->
  exists more fm' ss seen', (forall rest, read_grid cutoff convz v dims (Z.of_nat ntypes) (ls ++ rest) seen m fm = read_grid cutoff convz v dims (Z.of_nat ntypes) rest seen' (m ++ more) fm') /\
    seen_ok (pre ++ table) seen' (m ++ more) /\ apply_settings cutoff ss fm = Some fm' /\ NoDup (map fst (m ++ more)) /\
    Forall2 (given_by (pre ++ table) (m ++ more)) table ss.
Proof.
  intros ls table H. induction H as [|n e ls table Hn H IH]; intros pre seen m fm ST OK W ND IN.
  - exists [], fm, [], seen. rewrite !app_nil_r. cbn. auto.
  - inversion ST as [|? ? (Sa & Sb & Sk) ST']; subst. destruct Hn as [El Hn]. destruct n as [h ps subs]. destruct Hn as (a & xa & b & xb & t & xt & -> & Ea & Eb & Et).
    cbn [read_grid h_params app]. unfold cast_int. rewrite !(cast_meant convz), Ea, Eb, via_name, Et.
    destruct (Z.ltb_spec (Z.of_nat (e_a e)) 0); [lia|]. destruct (Z.ltb_spec (Z.of_nat (e_b e)) 0); [lia|].
    destruct (Z.leb_spec (Z.of_nat ntypes) (Z.of_nat (e_a e))); [lia|]. destruct (Z.leb_spec (Z.of_nat ntypes) (Z.of_nat (e_b e))); [lia|]. cbn [orb].
    assert (SS := seen_step pre seen m e OK (match list_eq_dec ascii_dec (e_name e) (T "None") with left p => or_introl p | right p => or_intror p end) ND IN). cbv zeta in SS.
    set (it := match find_token (e_name e) seen with Some it => it | None => if list_eq_dec ascii_dec (e_name e) (T "None") then None else Some (length m) end) in *.
    destruct (set_spec cutoff ntypes fm (mkSet (e_a e) (e_b e) it true) W Sa Sb) as (fm1 & F1 & W1 & _). cbn [s_a s_b s_it s_refl] in F1.
    assert (FP : set_pair cutoff (Z.of_nat (e_a e)) (Z.of_nat (e_b e)) it fm = Ok fm1) by (unfold set_pair; rewrite !Nat2Z.id, F1; reflexivity).
    assert (GO : forall seen1 m1, seen_ok (pre ++ [e]) seen1 m1 -> numbered (pre ++ [e]) m1 e it -> NoDup (map fst m1) -> (forall t, In t (map fst m1) -> find_token t seen1 <> None) -> (exists more, m1 = m ++ more) ->
      exists more fm' ss seen', (forall rest, read_grid cutoff convz v dims (Z.of_nat ntypes) (ls ++ rest) seen1 m1 fm1 = read_grid cutoff convz v dims (Z.of_nat ntypes) rest seen' (m ++ more) fm') /\
        seen_ok (pre ++ e :: table) seen' (m ++ more) /\ apply_settings cutoff ss fm = Some fm' /\ NoDup (map fst (m ++ more)) /\
        Forall2 (given_by (pre ++ e :: table) (m ++ more)) (e :: table) ss).
    { intros seen1 m1 S1 S2 S3 S4 (more & ->). destruct (IH (pre ++ [e]) seen1 (m ++ more) fm1 ST' S1 W1 S3 S4) as (more2 & fm' & ss & seen' & R1 & R0 & R2 & R3 & R4).
      rewrite <- !app_assoc in *. exists (more ++ more2), fm', (mkSet (e_a e) (e_b e) it true :: ss), seen'. split; [exact R1|]. split; [exact R0|]. split; [cbn [apply_settings s_a s_b s_it s_refl]; rewrite F1; exact R2|]. split; [exact R3|].
      cbn [app] in R4. constructor; [|exact R4]. split; [reflexivity|]. split; [reflexivity|]. split; [reflexivity|]. cbn [s_it].
      replace (pre ++ e :: table) with ((pre ++ [e]) ++ table) by (rewrite <- app_assoc; reflexivity). rewrite app_assoc. now apply numbered_more. }
    destruct (find_token (e_name e) seen) as [it0|] eqn:EF.
    + subst it. setoid_rewrite FP. cbn [bind]. destruct SS as (S1 & S2 & S3 & S4 & S5). now apply GO.
    + unfold get_interaction. destruct (list_eq_dec ascii_dec (e_name e) (T "None")) as [EN|NN].
      * replace (choose (e_name e) dims) with (@Ok bool false) by (now rewrite EN). cbn [bind]. subst it. setoid_rewrite FP. cbn [bind].
        destruct SS as (S1 & S2 & S3 & S4 & S5). now apply GO.
      * destruct Sk as [EN|AV]; [contradiction|]. destruct (choose_available _ _ AV) as [_ C]. rewrite C. cbn [bind]. subst it. setoid_rewrite FP. cbn [bind].
        rewrite <- El. destruct SS as (S1 & S2 & S3 & S4 & S5). now apply GO.
Qed.
Lemma read_grid_bad cutoff convz v dims ntypes n rest pre seen m fm : Forall (sound_entry ntypes dims) pre -> seen_ok pre seen m -> defective convz v ntypes dims n ->
  read_grid cutoff convz v dims (Z.of_nat ntypes) (n :: rest) seen m fm = Throw.
Proof.
  intros SP OK. destruct n as [h ps subs]. unfold defective. cbn [read_grid h_params]. destruct ps as [|[a xa] [|[b xb] [|[t xt] [|p ps]]]]; try reflexivity.
  unfold cast_int. rewrite !(cast_meant convz), via_name. intros D.
  destruct (Z.ltb_spec (convz (meant v a)) 0); [reflexivity|]. destruct (Z.ltb_spec (convz (meant v b)) 0); [reflexivity|].
  destruct (Z.leb_spec (Z.of_nat ntypes) (convz (meant v a))); [reflexivity|]. destruct (Z.leb_spec (Z.of_nat ntypes) (convz (meant v b))); [reflexivity|]. cbn [orb].
  destruct D as [D|[D|(N & A)]]; [lia|lia|]. specialize (OK (interaction_name v t)). destruct (find_token (interaction_name v t) seen) as [it|].
  - exfalso. destruct OK as [(E & _)|(_ & i & l & _ & F & _)]; [contradiction|]. unfold first_line in F. destruct (find _ pre) as [e|] eqn:FE; [|discriminate].
    apply find_some in FE. destruct FE as [I E]. destruct (list_eq_dec ascii_dec (e_name e) (interaction_name v t)) as [E2|]; [|discriminate].
    rewrite Forall_forall in SP. destruct (SP e I) as (_ & _ & [X|X]); rewrite E2 in X; contradiction.
  - unfold get_interaction. now rewrite (choose_other _ _ N A).
Qed.

(* --- random interactions --- *)
Fixpoint rsettings (rnd : nat -> Q) (k : nat) (ps : list (nat * nat)) : list setting :=
  match ps with [] => [] | (i, j) :: ps' => mkSet i j (Some (random_choice (rnd k))) true :: rsettings rnd (S k) ps' end.
Lemma set_random_settings cutoff rnd : forall ps k fm, set_random cutoff rnd k ps fm = match apply_settings cutoff (rsettings rnd k ps) fm with Some f => Ok f | None => Crash end.
Proof.
  induction ps as [|[i j] ps IH]; intros k fm; [reflexivity|]. cbn [set_random rsettings apply_settings s_a s_b s_it s_refl]. unfold set_pair. rewrite !Nat2Z.id.
  destruct (setInteraction cutoff i j (Some (random_choice (rnd k))) true fm); cbn [bind]; [apply IH|reflexivity].
Qed.
Lemma rsettings_in rnd : forall ps k s, In s (rsettings rnd k ps) -> exists d, nth_error ps d = Some (s_a s, s_b s) /\ s_it s = Some (random_choice (rnd (k + d)%nat)) /\ s_refl s = true.
Proof.
  induction ps as [|[i j] ps IH]; intros k s H; [destruct H|]. destruct H as [<-|H].
  - exists 0%nat. cbn. rewrite Nat.add_0_r. auto.
  - destruct (IH (S k) s H) as (d & D1 & D2 & D3). exists (S d). cbn [nth_error]. replace (k + S d)%nat with (S k + d)%nat by lia. auto.
Qed.
Lemma rsettings_nth rnd : forall ps k d i j, nth_error ps d = Some (i, j) -> In (mkSet i j (Some (random_choice (rnd (k + d)%nat))) true) (rsettings rnd k ps).
Proof.
  induction ps as [|[a b] ps IH]; intros k d i j H; [destruct d; discriminate|]. destruct d as [|d]; cbn [nth_error] in H; cbn [rsettings].
  - injection H as -> ->. left. now rewrite Nat.add_0_r.
  - right. replace (k + S d)%nat with (S k + d)%nat by lia. now apply IH.
Qed.
Lemma random_pairs_in n i j : In (i, j) (random_pairs n) <-> (i <= j < n)%nat.
Proof.
  unfold random_pairs. rewrite in_flat_map. split.
  - intros (x & Hx & Hj). apply in_map_iff in Hj as (y & Ey & Hy). apply in_seq in Hx, Hy. injection Ey as -> ->. lia.
  - intros H. exists i. rewrite in_seq. split; [lia|]. apply in_map. apply in_seq. lia.
Qed.
Lemma NoDup_pairs (f : nat -> list nat) : (forall i, NoDup (f i)) -> forall l, NoDup l -> NoDup (flat_map (fun i => map (pair i) (f i)) l).
Proof.
  intros F l. induction 1 as [|x l Hx H IH]; [constructor|]. cbn [flat_map].
  assert (G : forall m, NoDup m -> NoDup (map (pair x) m ++ flat_map (fun i => map (pair i) (f i)) l)).
  { induction 1 as [|y m Hy Hm IHm]; [exact IH|]. cbn [map app]. constructor; [|exact IHm]. intros C. apply in_app_or in C. destruct C as [C|C].
    - apply in_map_iff in C. destruct C as (z & E & Hz). injection E as ->. contradiction.
    - apply in_flat_map in C. destruct C as (z & Hz & C). apply in_map_iff in C. destruct C as (w & E & _). injection E as -> _. contradiction. }
  apply G, F.
Qed.
Lemma random_pairs_nodup n : NoDup (random_pairs n).
Proof. unfold random_pairs. apply (NoDup_pairs (fun i => seq i (n - i))); [intros; apply seq_NoDup|apply seq_NoDup]. Qed.
Lemma random_third q : third q (random_choice q).
Proof.
  unfold third, random_choice. destruct (Qltb_spec q (333 # 1000)); [left; auto|]. destruct (Qltb_spec q (666 # 1000)); [right; left|right; right]; split; try reflexivity; try split; lra.
Qed.
Lemma grid_random cutoff rnd n : exists fm, set_random cutoff rnd 0 (random_pairs n) (new_fm n) = Ok fm /\
  forall k a b, nth_error (random_pairs n) k = Some (a, b) -> exists c, third (rnd k) c /\ getInteraction (Z.of_nat a) (Z.of_nat b) fm = Some c /\ getInteraction (Z.of_nat b) (Z.of_nat a) fm = Some c.
Proof.
  set (ss := rsettings rnd 0 (random_pairs n)).
  assert (HV : valid_types n ss).
  { intros s Hs. destruct (rsettings_in _ _ _ _ Hs) as (d & D & _). apply nth_error_In, random_pairs_in in D. lia. }
  destruct (settings_spec cutoff n ss HV) as (fm & E & (W1 & W2 & _) & G & _). exists fm. split; [rewrite set_random_settings; fold ss; now rewrite E|].
  intros k a b Hk. exists (random_choice (rnd k)). split; [apply random_third|].
  assert (L : (a <= b < n)%nat) by (apply random_pairs_in; eapply nth_error_In; exact Hk).
  assert (U : forall s, In s ss -> concerns s a b \/ concerns s b a -> s_it s = Some (random_choice (rnd k))).
  { intros s Hs C. destruct (rsettings_in _ _ _ _ Hs) as (d & D1 & D2 & D3). rewrite D2. replace (0 + d)%nat with k; [reflexivity|].
    assert (M : (s_a s <= s_b s < n)%nat) by (apply random_pairs_in; eapply nth_error_In; exact D1).
    assert (s_a s = a /\ s_b s = b) as [<- <-] by (unfold concerns in C; intuition lia).
    cbn [Nat.add]. apply (proj1 (NoDup_nth_error (random_pairs n)) (random_pairs_nodup n)); [|congruence]. apply nth_error_Some. congruence. }
  assert (K := rsettings_nth rnd (random_pairs n) 0 k a b Hk). fold ss in K.
  assert (GI : forall x y, (x < n)%nat -> (y < n)%nat -> getInteraction (Z.of_nat x) (Z.of_nat y) fm = grid_at (fm_grid fm) x y).
  { intros x y Hx Hy. unfold getInteraction. rewrite W1. destruct (Z.leb_spec (Z.of_nat n) (Z.of_nat x)); [lia|]. destruct (Z.leb_spec (Z.of_nat n) (Z.of_nat y)); [lia|].
    destruct (Z.ltb_spec (Z.of_nat x) 0); [lia|]. destruct (Z.ltb_spec (Z.of_nat y) 0); [lia|]. cbn [orb]. rewrite !Nat2Z.id. reflexivity. }
  split.
  - rewrite GI by lia. assert (X := G a b). inversion X as [ss0 a0 b0 N E0|p s q a0 b0 C N E0].
    + exfalso. subst. apply (N _ K). left. cbn. auto.
    + apply U; [rewrite <- E0; apply in_or_app; right; now left|now left].
  - rewrite GI by lia. assert (X := G b a). inversion X as [ss0 a0 b0 N E0|p s q a0 b0 C N E0].
    + exfalso. subst. apply (N _ K). right. cbn. auto.
    + apply U; [rewrite <- E0; apply in_or_app; right; now left|now right].
Qed.
