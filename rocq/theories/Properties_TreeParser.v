(* C42: walking over a configuration file; C43: command line options *)
From Coq Require Import List Bool Ascii String Arith ZArith Lia Permutation.
From Verif Require Import Model_Eval Proofs_Eval Model_FileParse Model_TreeParser Spec_TreeParser Proofs_TreeParser.
Import ListNotations.
Local Open Scope char_scope.
Notation "'txt' s" := (list_ascii_of_string s%string) (at level 5, only parsing).

(* begin(name) ... next(): whatever was done before (no iteration being open) and whatever is done in the body of the loop, the loop visits the
   headings with that name under the focus, each once, in the order of the file, and leaves the parser exactly as it was. If there are none,
   begin says so and nothing changes. *)
Theorem C42_iteration_visits_named : forall root t p name, reached root t -> t_point t = (-1)%Z -> t_focus t = Some p ->
  (named root p name = [] /\ t_begin name t = (false, t)) \/
  (named root p name <> [] /\ exists t1, t_begin name t = (true, t1) /\ forall visited t2, rounds t1 visited t2 -> visited = map Some (named root p name) /\ t2 = t).
Proof.
  intros root t p name Hr Hp Hf. destruct (reached_inv root t Hr) as [Hs Hi].
  assert (Hi' : idle t) by (destruct Hi as [Hi|(l & m & k & B & _)]; [exact Hi|lia]).
  destruct (begin_idle root t p name Hs Hi' Hf) as [H|(q & ps & t' & Hn & Hb & S1 & B1 & F1)]; [left; exact H|right].
  rewrite Hn. split; [discriminate|]. exists t'. split; [exact Hb|]. intros v t2 Hro.
  destruct (rounds_visit root (q :: ps) p (List.length (q :: ps)) t' 0 v t2 ltac:(lia) S1 B1 F1 Hro) as (V & S2 & I2 & F2).
  split; [exact V|]. eapply same_parser; eauto. congruence.
Qed.
Print Assumptions C42_iteration_visits_named.
(* The loop can be carried out to its end *)
Theorem C42_iteration_ends : forall root t p name t1, reached root t -> t_point t = (-1)%Z -> t_focus t = Some p -> t_begin name t = (true, t1) ->
  exists visited t2, rounds t1 visited t2.
Proof.
  intros root t p name t1 Hr Hp Hf Hb. destruct (reached_inv root t Hr) as [Hs Hi].
  assert (Hi' : idle t) by (destruct Hi as [Hi|(l & m & k & B & _)]; [exact Hi|lia]).
  destruct (begin_idle root t p name Hs Hi' Hf) as [[_ H]|(q & ps & t' & Hn & Hb' & S1 & B1 & F1)]; [congruence|].
  rewrite Hb in Hb'. inversion Hb'; subst t'. clear Hb' Hb.
  assert (G : forall n t k, (List.length (q :: ps) - k = n)%nat -> sync root t -> busy t (q :: ps) p k -> exists v t2, rounds t v t2).
  { induction n as [|n IH]; intros t0 k Hn0 Hs0 Hb0; [destruct Hb0 as (_ & _ & _ & ?); lia|].
    destruct (next_busy root t0 _ _ _ Hs0 Hb0) as [N1 N2]. destruct (Nat.lt_ge_cases (S k) (List.length (q :: ps))) as [Hlt|Hge].
    - destruct (N1 Hlt) as (q' & _ & t' & Hx & S2 & B2 & _). destruct (IH t' (S k) ltac:(lia) S2 B2) as (v & t2 & Hv).
      exists (t_focus t0 :: v), t2. eapply (RMore t0 []); [reflexivity|exact Hx|exact Hv].
    - destruct (N2 Hge) as (t' & Hx & _). exists [t_focus t0], t'. eapply (RLast t0 []); [reflexivity|exact Hx]. }
  eapply (G _ t1 0); eauto.
Qed.
Print Assumptions C42_iteration_ends.

(* An iteration inside of an iteration is refused and changes nothing *)
Theorem C42_no_nested_iteration : forall t name, t_point t <> (-1)%Z -> t_begin name t = (false, t) /\ t_begin_all t = Some (false, t).
Proof. intros t name H. unfold t_begin, t_begin_all. destruct (t_point t =? -1)%Z eqn:E; [apply Z.eqb_eq in E; contradiction|split; reflexivity]. Qed.
Print Assumptions C42_no_nested_iteration.

(* focus(name) and lookups use the first heading with that name in the order of the file *)
Theorem C42_lookup_first : forall root t p name, reached root t -> t_focus t = Some p ->
  t_getNode name t = hd_error (named root p name) /\
  match hd_error (named root p name) with
  | Some q => fst (t_focus_on name t) = true /\ t_focus (snd (t_focus_on name t)) = Some q
  | None => t_focus_on name t = (false, t)
  end.
Proof.
  intros root t p name Hr Hf. destruct (reached_inv root t Hr) as [Hs _]. destruct (find_named root t p name Hs Hf) as (_ & F2 & F3).
  unfold t_getNode, t_focus_on. destruct (mm_find name (t_headings t)) as [|[k q] r] eqn:E.
  - rewrite (proj1 F2 eq_refl). split; reflexivity.
  - destruct (F3 k q r eq_refl) as (ps & ->). split; [reflexivity|]. split; reflexivity.
Qed.
Print Assumptions C42_lookup_first.

(* focus(name) goes down to that heading and up() comes back to where one was; at the top up() says so and stays *)
Theorem C42_focus_then_up : forall root t p name, reached root t -> t_point t = (-1)%Z -> t_focus t = Some p ->
  (forall q qs, named root p name = q :: qs -> exists t1, t_focus_on name t = (true, t1) /\ t_focus t1 = Some q /\ t_up t1 = Some (true, t)) /\
  (p = [] -> t_up t = Some (false, t)).
Proof.
  intros root t p name Hr Hp Hf. destruct (reached_inv root t Hr) as [Hs Hi]. split.
  - intros q qs Hn. destruct (find_named root t p name Hs Hf) as (_ & F2 & F3). unfold t_focus_on.
    destruct (mm_find name (t_headings t)) as [|[k q'] r] eqn:E; [rewrite (proj1 F2 eq_refl) in Hn; discriminate|].
    destruct (F3 k q' r eq_refl) as (ps & Hps). rewrite Hn in Hps. inversion Hps; subst q' ps.
    eexists. split; [reflexivity|]. split; [reflexivity|].
    assert (Hq : exists i, q = p ++ [i]).
    { assert (Hin : In q (named root p name)) by (rewrite Hn; left; reflexivity). unfold named in Hin. apply in_map_iff in Hin. destruct Hin as ([h q0] & Hq0 & Hin).
      cbn [snd] in Hq0. subst q0. apply filter_In in Hin. destruct Hin as [Hin _]. unfold under in Hin. destruct (node_at root p) as [[? ? subs]|]; [|destruct Hin].
      apply in_combine_r in Hin. apply in_map_iff in Hin. destruct Hin as (i & Hi' & _). eauto. }
    destruct Hq as (i & ->). unfold t_up. cbn [t_focus set_focus sortOptions].
    destruct (p ++ [i]) as [|a l] eqn:El; [destruct p; discriminate|]. rewrite <- El, removelast_last. f_equal. f_equal.
    assert (Hi' : idle t) by (destruct Hi as [Hi|(l0 & m & k0 & B & _)]; [exact Hi|lia]).
    symmetry. eapply (same_parser root); [exact Hs|apply sync_focus; apply Hs|exact Hi'|exact Hi'|exact Hf].
  - intros ->. unfold t_up. now rewrite Hf.
Qed.
Print Assumptions C42_focus_then_up.

(* check throws exactly if a necessary heading is missing under the focus; the headings it warns about are those that are neither necessary nor
   optional. Full statement: it also fails for unknown headings - false, see below. *)
Theorem C42_check_missing_partial : forall root t p necessary optional, reached root t -> t_focus t = Some p ->
  (fst (t_check necessary optional t) = true <-> exists n, In n necessary /\ ~ In n (map fst (under root p))) /\
  (forall h, In h (snd (t_check necessary optional t)) <-> In h (map fst (under root p)) /\ ~ In h necessary /\ ~ In h optional).
Proof.
  intros root t p nec opt Hr Hf. destruct (reached_inv root t Hr) as [Hs _].
  assert (HH : forall n, mm_has n (t_headings t) = true <-> In n (map fst (under root p))).
  { intros n. destruct (find_named root t p n Hs Hf) as (_ & F2 & _). unfold mm_has.
    assert (N : named root p n = [] <-> ~ In n (map fst (under root p))).
    { rewrite named_filter. split.
      - intros H Hin. apply map_eq_nil in H. apply in_map_iff in Hin. destruct Hin as (e & He & Hin).
        assert (In e (filter (eqn n) (under root p))) as X by (apply filter_In; split; [exact Hin|now apply eqn_spec]). rewrite H in X. destruct X.
      - intros H. destruct (filter (eqn n) (under root p)) as [|e l] eqn:E; [reflexivity|]. exfalso. apply H.
        assert (In e (filter (eqn n) (under root p))) as X by (rewrite E; left; reflexivity). apply filter_In in X. destruct X as [X1 X2]. apply eqn_spec in X2.
        rewrite <- X2. now apply in_map. }
    rewrite N in F2. destruct (mm_find n (t_headings t)) eqn:E.
    - split; [discriminate|]. intros H. exfalso. apply (proj1 F2 eq_refl). exact H.
    - split; [|reflexivity]. intros _. destruct (in_dec (list_eq_dec ascii_dec) n (map fst (under root p))) as [H|H]; [exact H|]. apply F2 in H. discriminate. }
  assert (EX : forall (h : text) l, existsb (text_eqb h) l = true <-> In h l).
  { intros h l. rewrite existsb_exists. split; [intros (x & Hx & He); apply text_eqb_eq in He; now subst|intros H; exists h; split; [exact H|now apply text_eqb_eq]]. }
  unfold t_check. cbn [fst snd]. split.
  - rewrite existsb_exists. split; intros (n & Hn & H); exists n; (split; [exact Hn|]).
    + intros Hin. apply HH in Hin. rewrite Hin in H. discriminate.
    + destruct (mm_has n (t_headings t)) eqn:E; [apply HH in E; contradiction|reflexivity].
  - intros h. rewrite in_map_iff. destruct Hs as (_ & p' & Hf' & Hh). rewrite Hf in Hf'. inversion Hf'; subst p'.
    destruct (sort_spec (under root p)) as (_ & Pm & _). rewrite <- Hh in Pm. split.
    + intros (e & <- & He). apply filter_In in He. destruct He as [Hin He]. apply andb_true_iff in He. destruct He as [He1 He2].
      apply negb_true_iff in He1, He2. split; [apply in_map; eapply Permutation_in; eauto|].
      split; intros X; apply EX in X; congruence.
    + intros (Hin & H1 & H2). apply in_map_iff in Hin. destruct Hin as (e & <- & Hin). exists e. split; [reflexivity|]. apply filter_In.
      split; [eapply Permutation_in; [symmetry; exact Pm|exact Hin]|]. apply andb_true_iff.
      split; apply negb_true_iff; match goal with |- ?b = false => destruct b eqn:E; [apply EX in E; contradiction|reflexivity] end.
Qed.
Print Assumptions C42_check_missing_partial.
Theorem C42_unknown_heading_refuted : exists root t h, reached root t /\ In h (map fst (under root [])) /\ t_focus t = Some [] /\ fst (t_check [] [] t) = false.
Proof.
  exists (Head [] [] [Head (txt "Oops") [] []]), (t_new (Head [] [] [Head (txt "Oops") [] []])), (txt "Oops").
  split; [constructor|]. split; [left; reflexivity|]. split; reflexivity.
Qed.
Print Assumptions C42_unknown_heading_refuted.

(* argName(i) gives parameter i, and nothing outside of the range, for every i *)
Theorem C42_argName_safe : forall ps i, (-2 ^ 31 <= i < 2 ^ 31)%Z ->
  acc_argName ps i = match (if (i <? 0)%Z then None else nth_error ps (Z.to_nat i)) with Some p => Found p | None => Absent end.
Proof.
  intros ps i Hi. unfold acc_argName, read_at, unsigned. destruct (i <? 0)%Z eqn:E.
  - apply Z.ltb_lt in E. destruct (-1 <? i)%Z eqn:E1; [apply Z.ltb_lt in E1; lia|]. reflexivity.
  - apply Z.ltb_ge in E. destruct (-1 <? i)%Z eqn:E1; [|apply Z.ltb_ge in E1; lia]. cbn [andb].
    destruct (i <? Z.of_nat (List.length ps))%Z eqn:E2.
    + apply Z.ltb_lt in E2. destruct (nth_error ps (Z.to_nat i)) eqn:E3; [reflexivity|]. apply nth_error_None in E3. lia.
    + apply Z.ltb_ge in E2. assert (nth_error ps (Z.to_nat i) = None) as -> by (apply nth_error_None; lia). reflexivity.
Qed.
Print Assumptions C42_argName_safe.
(* The other accessors (arg, arg_cast, val, valName, argvalName): right for indices in the range and for negative ones (with fewer than 2^63
   parameters); every other index reads outside of the data *)
Theorem C42_argument_access_partial : forall ps i, (-2 ^ 31 <= i < 2 ^ 31)%Z -> (Z.of_nat (List.length ps) < 2 ^ 63)%Z ->
  acc_other ps i = if (i <? 0)%Z then Absent else match nth_error ps (Z.to_nat i) with Some p => Found p | None => Bad end.
Proof.
  intros ps i Hi Hn. unfold acc_other, read_at, unsigned. destruct (i <? 0)%Z eqn:E.
  - apply Z.ltb_lt in E. destruct (-1 <? i)%Z eqn:E1; [apply Z.ltb_lt in E1; lia|]. cbn [orb].
    destruct (i + 2 ^ 64 <? Z.of_nat (List.length ps))%Z eqn:E2; [apply Z.ltb_lt in E2; lia|]. reflexivity.
  - apply Z.ltb_ge in E. destruct (-1 <? i)%Z eqn:E1; [|apply Z.ltb_ge in E1; lia]. cbn [orb]. destruct (nth_error ps (Z.to_nat i)); reflexivity.
Qed.
Print Assumptions C42_argument_access_partial.
Theorem C42_argument_access_refuted : exists ps i, acc_argName ps i = Absent /\ acc_other ps i = Bad.
Proof. exists [], 0%Z. split; reflexivity. Qed.
Print Assumptions C42_argument_access_refuted.

(* begin() over an empty body reads element 0 of an empty list (the code documents that it returns false) *)
Theorem C42_begin_empty_refuted : forall root t, reached root t -> t_point t = (-1)%Z -> t_focus t = Some [] -> under root [] = [] -> t_begin_all t = None.
Proof.
  intros root t Hr Hp Hf Hu. destruct (reached_inv root t Hr) as [(_ & p & Hf' & Hh) Hi]. rewrite Hf in Hf'. inversion Hf'; subst p.
  rewrite Hu in Hh. assert (Hl : t_list t = []) by (destruct Hi as [(_ & H & _)|(l & m & k & B & _)]; [exact H|lia]).
  unfold t_begin_all. rewrite Hp, Hl, Hh. reflexivity.
Qed.
Print Assumptions C42_begin_empty_refuted.
(* begin() goes through the headings by name, not in the order of the file *)
Theorem C42_begin_all_order_refuted : exists root t, t_begin_all (t_new root) = Some (true, t) /\ under root [] = [(txt "B", [0]); (txt "A", [1])] /\ t_list t = [[1]; [0]].
Proof. exists (Head [] [] [Head (txt "B") [] []; Head (txt "A") [] []]). eexists. split; [reflexivity|]. split; reflexivity. Qed.
Print Assumptions C42_begin_all_order_refuted.
(* but each of them once *)
Theorem C42_begin_all_each_once : forall root t p t', reached root t -> t_point t = (-1)%Z -> t_focus t = Some p -> t_begin_all t = Some (true, t') ->
  Permutation (t_list t') (map snd (under root p)).
Proof.
  intros root t p t' Hr Hp Hf H. destruct (reached_inv root t Hr) as [(_ & p' & Hf' & Hh) Hi]. rewrite Hf in Hf'. inversion Hf'; subst p'.
  assert (Hl : t_list t = []) by (destruct Hi as [(_ & H0 & _)|(l & m & k & B & _)]; [exact H0|lia]).
  unfold t_begin_all in H. rewrite Hp, Hl in H. cbn [negb Z.eqb Pos.eqb app] in H.
  destruct (map snd (t_headings t)) as [|q l] eqn:E; [discriminate|]. inversion H; subst. cbn [t_list set_focus sortOptions]. rewrite <- E, Hh.
  apply Permutation_map. apply (sort_spec (under root p)).
Qed.
Print Assumptions C42_begin_all_each_once.
(* next() without begin loses the focus *)
Theorem C42_next_without_begin_refuted : forall root, t_focus (t_new root) = Some [] /\ t_focus (snd (t_next (t_new root))) = None.
Proof. intros root. split; reflexivity. Qed.
Print Assumptions C42_next_without_begin_refuted.

(* A concrete file: A, B, A, under a heading X; loops over A from X with focus changes in the body *)
Definition ex_root : node := Head [] [] [Head (txt "X") [] [Head (txt "A") [] [Head (txt "Deep") [] []]; Head (txt "B") [] []; Head (txt "A") [] []]].
Definition ex_t : tparser := snd (t_focus_on (txt "X") (t_new ex_root)).
Lemma more_round t ops t1 t2 v t3 f : t_focus t = f -> do_ops ops t = Some t1 -> t_next t1 = (true, t2) -> rounds t2 v t3 -> rounds t (f :: v) t3.
Proof. intros <-. apply RMore. Qed.
Lemma last_round t ops t1 t2 f : t_focus t = f -> do_ops ops t = Some t1 -> t_next t1 = (false, t2) -> rounds t [f] t2.
Proof. intros <-. apply RLast. Qed.
Example C42_case : reached ex_root ex_t /\ t_point ex_t = (-1)%Z /\ t_focus ex_t = Some [0] /\ named ex_root [0] (txt "A") = [[0; 0]; [0; 2]] /\
  exists t2, rounds (snd (t_begin (txt "A") ex_t)) [Some [0; 0]; Some [0; 2]] t2.
Proof.
  split; [apply (ROp _ (t_new ex_root) (OFocus (txt "X"))); [constructor|reflexivity]|]. split; [reflexivity|]. split; [reflexivity|]. split; [reflexivity|].
  eexists. eapply (more_round _ [OFocus (txt "Deep"); OUp; OUp]); [reflexivity|vm_compute; reflexivity|vm_compute; reflexivity|].
  eapply (last_round _ [OFocus0 (txt "X")]); [reflexivity|vm_compute; reflexivity|vm_compute; reflexivity].
Qed.

(* --- command line --- *)
(* the options: -name or -name=value, the name up to the first = *)
Definition is_option (a : list ascii) (name value : list ascii) : Prop :=
  ~ In "=" name /\ (a = "-" :: name /\ value = [] \/ a = "-" :: name ++ "=" :: value).
Lemma split_option a name value : is_option a name value -> arg_token a = Some (name, value).
Proof.
  intros (Hn & [[-> ->]| ->]); cbn [arg_token]; change ("-" =? "-") with true; cbv iota; f_equal.
  - induction name as [|c n IH]; [reflexivity|]. cbn [split_eq]. destruct (Ascii.eqb_spec c "="); [subst; exfalso; apply Hn; left; reflexivity|].
    rewrite IH; [reflexivity|]. intros H; apply Hn; right; exact H.
  - induction name as [|c n IH]; [reflexivity|]. cbn [split_eq app]. destruct (Ascii.eqb_spec c "="); [subst; exfalso; apply Hn; left; reflexivity|].
    rewrite IH; [reflexivity|]. intros H; apply Hn; right; exact H.
Qed.
Lemma parse_options : forall argv l o, Forall2 (fun a nv => is_option a (fst nv) (snd nv)) argv l -> arg_parse argv o = Some (o ++ map (fun nv => (nv, false)) l).
Proof.
  intros argv l o H. revert o. induction H as [|a [n v] argv l Ha H IH]; intros o; cbn [arg_parse map]; [now rewrite app_nil_r|].
  cbn [fst snd] in Ha. rewrite (split_option a n v Ha), IH, <- app_assoc. reflexivity.
Qed.
(* Each argument is recorded, in order; anything that does not start with - is refused *)
Theorem C43_arguments_recorded : forall argv,
  (forall l, Forall2 (fun a nv => is_option a (fst nv) (snd nv)) argv l -> exists o, arg_parse argv [] = Some o /\ map fst o = l) /\
  (arg_parse argv [] = None <-> exists a, In a argv /\ hd_error a <> Some "-").
Proof.
  intros argv. split.
  - intros l H. rewrite (parse_options argv l [] H). eexists. split; [reflexivity|]. cbn. rewrite map_map. apply map_id.
  - assert (G : forall o, arg_parse argv o = None <-> exists a, In a argv /\ hd_error a <> Some "-"); [|apply G].
    induction argv as [|a argv IH]; intros o; cbn [arg_parse]; [split; [discriminate|intros (a & [] & _)]|].
    unfold arg_token. destruct a as [|c a].
    + split; [intros _; exists []; split; [left; reflexivity|discriminate]|reflexivity].
    + destruct (Ascii.eqb_spec c "-") as [->|Hc].
      * rewrite IH. split; intros (x & Hx & H); [exists x; split; [right; exact Hx|exact H]|].
        destruct Hx as [<-|Hx]; [cbn in H; congruence|]. exists x. auto.
      * split; [|reflexivity]. intros _. exists (c :: a). split; [left; reflexivity|]. cbn. congruence.
Qed.
Print Assumptions C43_arguments_recorded.

(* a sequence of lookups: what each gives, and the options at the end *)
Fixpoint gets (tokens : list text) (o : options) : list (option text) * options :=
  match tokens with [] => ([], o) | t :: ts => let (x, o') := arg_get t o in let (xs, o'') := gets ts o' in (x :: xs, o'') end.
(* the value given last to a name, 1 if it was given without a value *)
Fixpoint given (name : text) (l : list (text * text)) : option text :=
  match l with
  | [] => None
  | (n, v) :: l' => match given name l' with
    | Some x => Some x
    | None => if list_eq_dec ascii_dec n name then Some (match v with [] => ["1"] | _ => v end) else None
    end
  end.
Lemma find_given name : forall o, name <> [] ->
  (let opt := fst (arg_find name o) in match fst opt with [] => None | _ :: _ => match snd opt with [] => Some ["1"] | v => Some v end end) = given name (map fst o).
Proof.
  intros o Hn. unfold arg_find. cbn [fst].
  assert (G : forall (o : options) (acc : text * text), fst acc = [] \/ fst acc = name ->
    let opt := fold_left (fun (acc : text * text) (e : text * text * bool) => if text_eqb (fst (fst e)) name then fst e else acc) o acc in
    (match fst opt with [] => None | _ :: _ => match snd opt with [] => Some ["1"] | v => Some v end end) =
    match given name (map fst o) with Some x => Some x | None => match fst acc with [] => None | _ => match snd acc with [] => Some ["1"] | v => Some v end end end).
  { induction o0 as [|[[n v] b] o0 IH]; intros acc Ha; [reflexivity|]. cbn [fold_left map fst given].
    destruct (list_eq_dec ascii_dec n name) as [->|Hne].
    - rewrite (proj2 (text_eqb_eq name name) eq_refl). cbv zeta in IH |- *. rewrite IH by (right; reflexivity). cbn [fst snd].
      destruct (given name (map fst o0)); [reflexivity|]. destruct name; [contradiction|]. destruct v; reflexivity.
    - destruct (text_eqb n name) eqn:E; [apply text_eqb_eq in E; contradiction|]. cbv zeta in IH |- *. rewrite IH by assumption.
      destruct (given name (map fst o0)); reflexivity. }
  specialize (G o ([], []) (or_introl eq_refl)). cbv zeta in G |- *. rewrite G. cbn. destruct (given name (map fst o)); reflexivity.
Qed.
Lemma get_marks t o : map fst (snd (arg_get t o)) = map fst o /\
  snd (arg_get t o) = map (fun e : text * text * bool => if text_eqb (fst (fst e)) t then (fst e, true) else e) o.
Proof.
  unfold arg_get. destruct (arg_find t o) as [opt o'] eqn:E. unfold arg_find in E. inversion E. cbn [snd]. split; [|reflexivity].
  rewrite map_map. apply map_ext. intros e. destruct (text_eqb (fst (fst e)) t); reflexivity.
Qed.
(* Whatever the arguments and the lookups (of non-empty names): each lookup gives the value given last (1 without a value), or leaves the variable alone
   if the option was not given; and the final check fails exactly if some option given was never looked up *)
Theorem C43_lookup_and_check : forall argv o tokens, arg_parse argv [] = Some o -> Forall (fun t => t <> []) tokens ->
  fst (gets tokens o) = map (fun t => given t (map fst o)) tokens /\
  (arg_check (snd (gets tokens o)) = true <-> exists name value, In (name, value) (map fst o) /\ ~ In name tokens).
Proof.
  intros argv o tokens Hp Hne.
  assert (H0 : Forall (fun e : text * text * bool => snd e = false) o).
  { assert (G : forall argv o0 o, Forall (fun e : text * text * bool => snd e = false) o0 -> arg_parse argv o0 = Some o -> Forall (fun e : text * text * bool => snd e = false) o).
    { clear. induction argv as [|a argv IH]; intros o0 o Hf H; cbn [arg_parse] in H; [inversion H; now subst|].
      destruct (arg_token a); [|discriminate]. eapply IH; [|exact H]. apply Forall_app. split; [exact Hf|]. constructor; [reflexivity|constructor]. }
    eapply G; [|exact Hp]. constructor. }
  assert (G1 : forall ts o, Forall (fun t => t <> []) ts -> fst (gets ts o) = map (fun t => given t (map fst o)) ts).
  { clear. induction ts as [|t ts IH]; intros o Hn; [reflexivity|]. inversion Hn; subst. cbn [gets].
    destruct (arg_get t o) as [x o'] eqn:E. destruct (gets ts o') as [xs o''] eqn:E2. cbn [fst map]. f_equal.
    - unfold arg_get in E. pose proof (find_given t o H1) as F. destruct (arg_find t o) as [opt o1]. cbn [fst] in F. inversion E; subst. exact F.
    - specialize (IH o' H2). rewrite E2 in IH. cbn [fst] in IH. rewrite IH. destruct (get_marks t o) as [M _]. rewrite E in M. cbn [snd] in M. now rewrite M. }
  assert (G2 : forall ts o, snd (gets ts o) = map (fun e : text * text * bool => if existsb (text_eqb (fst (fst e))) ts then (fst e, true) else e) o).
  { clear. induction ts as [|t ts IH]; intros o; [cbn; symmetry; erewrite map_ext; [apply map_id|reflexivity]|]. cbn [gets].
    destruct (arg_get t o) as [x o'] eqn:E. destruct (gets ts o') as [xs o''] eqn:E2. cbn [snd].
    specialize (IH o'). rewrite E2 in IH. cbn [snd] in IH. rewrite IH. destruct (get_marks t o) as [_ M]. rewrite E in M. cbn [snd] in M. rewrite M, map_map.
    apply map_ext. intros e. cbn [existsb]. destruct (text_eqb (fst (fst e)) t); cbn [fst orb]; destruct (existsb (text_eqb (fst (fst e))) ts); reflexivity. }
  split; [apply G1; exact Hne|]. rewrite G2. unfold arg_check. rewrite existsb_exists.
  assert (EX : forall (h : text) l, existsb (text_eqb h) l = true <-> In h l).
  { intros h l. rewrite existsb_exists. split; [intros (x & Hx & He); apply text_eqb_eq in He; now subst|intros H; exists h; split; [exact H|now apply text_eqb_eq]]. }
  split.
  - intros (e & He & Hb). apply in_map_iff in He. destruct He as ([[n v] b] & <- & Hin). cbn [fst] in Hb.
    destruct (existsb (text_eqb n) tokens) eqn:E; [discriminate|]. exists n, v. split; [change (n, v) with (fst (n, v, b)); now apply in_map|].
    intros H. apply EX in H. congruence.
  - intros (n & v & Hin & Hni). apply in_map_iff in Hin. destruct Hin as ([nv b] & Hnv & Hin). cbn [fst] in Hnv. subst nv.
    rewrite Forall_forall in H0. specialize (H0 _ Hin). cbn in H0. subst b.
    exists (n, v, false). split; [|reflexivity]. apply in_map_iff. exists (n, v, false). split; [|exact Hin]. cbn [fst].
    destruct (existsb (text_eqb n) tokens) eqn:E; [apply EX in E; contradiction|reflexivity].
Qed.
Print Assumptions C43_lookup_and_check.
Example C43_case : exists o, arg_parse [txt "-n=3"; txt "-debug"; txt "-n=4=5"; txt "-x="] [] = Some o /\
  fst (gets [txt "n"; txt "debug"; txt "m"; txt "n"] o) = [Some (txt "4=5"); Some (txt "1"); None; Some (txt "4=5")] /\
  arg_check (snd (gets [txt "n"; txt "debug"; txt "m"] o)) = true /\ arg_check (snd (gets [txt "n"; txt "debug"; txt "x"] o)) = false.
Proof. eexists. split; [reflexivity|]. repeat split; vm_compute; reflexivity. Qed.
