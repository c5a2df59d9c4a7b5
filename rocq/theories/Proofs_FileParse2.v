From Coq Require Import List Bool Ascii Arith Lia.
From Verif Require Import Model_Eval Model_FileParse Spec_FileParse Proofs_FileParse.
Import ListNotations.
Local Open Scope char_scope.

Lemma newline_in c : In c NL <-> newline c = true.
Proof.
  unfold newline, NL. cbn [In]. rewrite orb_true_iff, !Ascii.eqb_eq. intuition congruence.
Qed.
Lemma newline_no c : ~ In c NL -> newline c = false.
Proof. intros H. destruct (newline c) eqn:E; [|reflexivity]. apply newline_in in E. contradiction. Qed.
Lemma ws_in c : In c WS <-> (c =? " ") || newline c = true.
Proof. unfold WS. cbn [In]. rewrite <- newline_in || idtac. rewrite orb_true_iff, Ascii.eqb_eq, <- newline_in. unfold NL. cbn [In]. intuition congruence. Qed.
Lemma nl_cases c : In c NL -> c = "010" \/ c = "013".
Proof. cbn. intuition. Qed.
Lemma neq_eqb (c d : ascii) : c <> d -> (c =? d) = false.
Proof. intros H. destruct (Ascii.eqb_spec c d); congruence. Qed.
Lemma passComment_line : forall w c k, no NL w -> In c NL -> passComment false (w ++ c :: k) = (c :: k, false).
Proof.
  induction w as [|d w IH]; intros c k Hw Hc; cbn [app passComment andb].
  - now rewrite (proj1 (newline_in c) Hc).
  - inversion Hw; subst. rewrite newline_no by assumption. now apply IH.
Qed.
Lemma passComment_block : forall w k, no ["*"] w -> passComment true (w ++ "*" :: "/" :: k) = (k, false).
Proof.
  induction w as [|d w IH]; intros k Hw; [reflexivity|]. inversion Hw; subst. cbn [app passComment andb].
  rewrite neq_eqb by (intros ->; apply H1; left; reflexivity). destruct (newline d); now apply IH.
Qed.

(* --- parameters --- *)
Definition sep (k : text) : Prop := match k with [] => False | d :: _ => d <> "*" /\ d <> "/" end.
Definition addA (ap : bool) (a s : text) : text := if ap then a ++ s else a.
Definition addB (ap : bool) (b s : text) : text := if ap then b else b ++ s.
Lemma loop_spread : forall s t, spread s t -> forall k f ap a b more body x, sep k ->
  getParam_loop f ap (addA ap a s) (addB ap b s) more body k = Parsed x -> getParam_loop (f + length t) ap a b more body (t ++ k) = Parsed x.
Proof.
  assert (A1 : forall ap a c s, addA ap a (c :: s) = addA ap (if ap then a ++ [c] else a) s) by (intros [] a c s; cbn; [now rewrite <- app_assoc|reflexivity]).
  assert (B1 : forall ap b c s, addB ap b (c :: s) = addB ap (if ap then b else b ++ [c]) s) by (intros [] b c s; cbn; [reflexivity|now rewrite <- app_assoc]).
  intros s t H. induction H as [|c s t Hc H IH|s t H IH Ht|s t H IH|w s t Hw H IH]; intros k f ap a b more body x Hk Hx.
  - cbn. rewrite Nat.add_0_r. destruct ap; cbn in Hx; rewrite app_nil_r in Hx; exact Hx.
  - rewrite A1, B1 in Hx. apply IH in Hx; [|exact Hk].
    cbn [length app]. rewrite Nat.add_succ_r. cbn [getParam_loop].
    assert (N : forall d, In d ("/" :: "=" :: "," :: "{" :: WS) -> (c =? d) = false) by (intros d Hd; apply neq_eqb; intros ->; contradiction).
    rewrite (N "/"), (N "="), (N ","), (N "{"), (N " ") by (cbn; tauto).
    rewrite newline_no by (intros Hn; apply Hc; cbn in *; tauto). exact Hx.
  - rewrite A1, B1 in Hx. apply IH in Hx; [|exact Hk].
    cbn [length app]. rewrite Nat.add_succ_r. cbn [getParam_loop]. change ("/" =? "/") with true. cbv iota.
    assert (Hd : exists d q, t ++ k = d :: q /\ d <> "*" /\ d <> "/").
    { destruct t as [|d t]; [destruct k as [|d k]; [destruct Hk|]|]; cbn; eauto. }
    destruct Hd as (d & q & Hd & N1 & N2). rewrite Hd in *. rewrite (neq_eqb d "*" N1), (neq_eqb d "/" N2). cbn [orb]. exact Hx.
  - apply IH in Hx; [|exact Hk]. cbn [length app]. rewrite Nat.add_succ_r. cbn [getParam_loop]. exact Hx.
  - apply IH in Hx; [|exact Hk]. cbn [app]. rewrite <- app_assoc. cbn [app].
    eapply (loop_more (S (f + length t))); [cbn [length]; rewrite app_length; cbn [length]; lia|].
    cbn [getParam_loop]. change ("/" =? "/") with true. change (("*" =? "*") || ("*" =? "/")) with true. cbv iota.
    cbn [checkComment]. change ("*" =? "/") with false. change ("*" =? "*") with true. cbv iota.
    rewrite passComment_block by exact Hw. exact Hx.
Qed.
Definition ending (k : text) (more body : bool) (k' : text) : Prop :=
  (k = "," :: k' /\ more = true /\ body = false) \/ (k = "{" :: k' /\ more = false /\ body = true) \/ (exists e, line_end e /\ k = e ++ k' /\ more = false /\ body = false).
Lemma ending_sep k m b k' : ending k m b k' -> sep k.
Proof.
  intros [(-> & _)|[(-> & _)|(e & He & -> & _)]]; cbn; [split; discriminate|split; discriminate|].
  destruct He as [c Hc|w c Hw Hc]; cbn; [|split; discriminate]. destruct (nl_cases c Hc) as [-> | ->]; split; discriminate.
Qed.
Lemma loop_ending k m bo k' ap a b : ending k m bo k' -> exists f, (f <= 3)%nat /\ getParam_loop f ap a b true false k = Parsed (a, b, m, bo, k', false).
Proof.
  intros [(-> & -> & ->)|[(-> & -> & ->)|(e & He & -> & -> & ->)]]; [exists 1%nat; split; [lia|reflexivity]|exists 1%nat; split; [lia|reflexivity]|].
  destruct He as [c Hc|w c Hw Hc].
  - exists 1%nat. split; [lia|]. destruct (nl_cases c Hc) as [-> | ->]; reflexivity.
  - exists 3%nat. split; [lia|]. cbn [app]. rewrite <- app_assoc. cbn [app].
    assert (H : passComment false (w ++ c :: k') = (c :: k', false)) by (apply passComment_line; assumption).
    change (getParam_loop 3 ap a b true false (" " :: "/" :: "/" :: w ++ c :: k')) with
      (match checkComment ("/" :: w ++ c :: k') with Some (r'', true) => Parsed (a, b, true, false, r'', true) | Some (r'', false) => getParam_loop 1 ap a b true false r'' | None => Throws end).
    cbn [checkComment]. change ("/" =? "/") with true. cbv iota. rewrite H. destruct (nl_cases c Hc) as [-> | ->]; reflexivity.
Qed.
Lemma loop_any r a b m bo ap a' b' m' bo' r' e : (exists f, getParam_loop f ap a b m bo r = Parsed (a', b', m', bo', r', e)) ->
  getParam_loop (S (length r)) ap a b m bo r = Parsed (a', b', m', bo', r', e).
Proof.
  intros [f H]. destruct (loop_finishes (S (length r)) ap a b m bo r ltac:(lia)) as (a1 & b1 & m1 & bo1 & r1 & e1 & H1 & _).
  assert (getParam_loop (f + S (length r)) ap a b m bo r = Parsed (a', b', m', bo', r', e)) as E1 by (eapply loop_more; [|exact H]; lia).
  assert (getParam_loop (f + S (length r)) ap a b m bo r = Parsed (a1, b1, m1, bo1, r1, e1)) as E2 by (eapply loop_more; [|exact H1]; lia).
  congruence.
Qed.
Lemma param_loop p t k m bo k' : param_text p t -> ending k m bo k' ->
  getParam_loop (S (length (t ++ k))) true [] [] true false (t ++ k) = Parsed (fst p, snd p, m, bo, k', false).
Proof.
  intros H Hk. apply loop_any. destruct H as [a t Ha Hs|a b t t' Ha Hs Hs'].
  - destruct (loop_ending k m bo k' true a [] Hk) as (f & _ & Hf). eexists. eapply loop_spread; [exact Hs|eapply ending_sep; eauto|]. exact Hf.
  - destruct (loop_ending k m bo k' false a b Hk) as (f & _ & Hf).
    assert (H2 : getParam_loop (S (f + length t')) true a [] true false ("=" :: t' ++ k) = Parsed (a, b, m, bo, k', false)).
    { cbn [getParam_loop]. change ("=" =? "/") with false. change ("=" =? "=") with true. cbv iota.
      eapply loop_spread; [exact Hs'|eapply ending_sep; eauto|]. exact Hf. }
    eexists. rewrite <- app_assoc. cbn [app]. eapply loop_spread; [exact Hs|cbn; split; discriminate|]. exact H2.
Qed.
Lemma empty_loop t k m bo k' : spread [] t -> ending k m bo k' ->
  getParam_loop (S (length (t ++ k))) true [] [] true false (t ++ k) = Parsed ([], [], m, bo, k', false).
Proof.
  intros Hs Hk. apply loop_any. destruct (loop_ending k m bo k' true [] [] Hk) as (f & _ & Hf). eexists.
  eapply loop_spread; [exact Hs|eapply ending_sep; eauto|]. exact Hf.
Qed.
Lemma params_recovered : forall ps t, params_text ps t -> forall k bo k', ending k false bo k' ->
  getParameters (S (length t)) false (t ++ k) false = Parsed (ps, bo, k', false).
Proof.
  intros ps t H. induction H as [t Hs|p t Hp|p ps t t' Hp Hps IH]; intros k bo k' Hk; cbn [getParameters].
  - rewrite (empty_loop t k false bo k' Hs Hk). reflexivity.
  - rewrite (param_loop p t k false bo k' Hp Hk). destruct Hp as [a u Ha _|a b u u' Ha _ _]; destruct a; try contradiction; reflexivity.
  - assert (He : ending ("," :: t' ++ k) true false (t' ++ k)) by (left; auto).
    rewrite <- app_assoc. cbn [app]. rewrite (param_loop p t ("," :: t' ++ k) true false (t' ++ k) Hp He).
    specialize (IH k bo k' Hk). rewrite (parameters_more (S (length t')) (length (t ++ "," :: t')) _ _ _ _) with (2 := IH); [|rewrite app_length; cbn [length]; lia].
    destruct Hp as [a u Ha _|a b u t1 Ha _ _]; destruct a; try contradiction; reflexivity.
Qed.
Lemma parameters_space f body r : getParameters f body (" " :: r) false = getParameters f body r false.
Proof. destruct f; [reflexivity|]. reflexivity. Qed.
Lemma parameters_any f r body x : getParameters f body r false = Parsed x -> getParameters (S (S (length r))) body r false = Parsed x.
Proof.
  intros H. destruct (parameters_finish (S (S (length r))) body r false) as (ps & bo & r' & e & H1 & _); [left; lia|].
  assert (E1 : getParameters (f + S (S (length r))) body r false = Parsed x) by (eapply parameters_more; [|exact H]; lia).
  assert (E2 : getParameters (f + S (S (length r))) body r false = Parsed (ps, bo, r', e)) by (eapply parameters_more; [|exact H1]; lia).
  congruence.
Qed.
(* passSpaces, then the parameters unless the line has ended *)
Lemma after_colon : forall r ps bo k', getParameters (S (S (length r))) false r false = Parsed (ps, bo, k', false) ->
  let '(nl, r2, eof2) := passSpaces r in
  (if negb eof2 && negb nl && negb false then getParameters (S (S (length r2))) false r2 eof2 else Parsed ([], false, r2, eof2)) = Parsed (ps, bo, k', false).
Proof.
  induction r as [|c r IH]; intros ps bo k' H; [cbn in H; discriminate|].
  cbn [passSpaces]. destruct (Ascii.eqb_spec c " ") as [->|Hc].
  - apply IH. eapply parameters_any. rewrite parameters_space in H. exact H.
  - destruct (newline c) eqn:En.
    + cbn [negb andb]. apply newline_in in En.
      assert (H2 : getParameters (S (S (length (c :: r)))) false (c :: r) false = Parsed ([], false, r, false)) by (destruct (nl_cases c En) as [-> | ->]; reflexivity).
      rewrite H in H2. inversion H2; subst. reflexivity.
    + cbn [negb andb]. exact H.
Qed.

(* --- bodies --- *)
Lemma white_other c k : ~ In c WS -> passWhiteSpaces (c :: k) = (c :: k, false).
Proof. intros H. cbn. destruct ((c =? " ") || newline c) eqn:E; [apply ws_in in E; contradiction|reflexivity]. Qed.
Lemma body_space f c r x : In c WS -> getBody f r false = Parsed x -> getBody f (c :: r) false = Parsed x.
Proof.
  intros Hc H. destruct f; [discriminate|]. cbn [getBody] in *.
  assert (E : passWhiteSpaces (c :: r) = passWhiteSpaces r) by (cbn; now rewrite (proj1 (ws_in c) Hc)). rewrite E. exact H.
Qed.
Lemma body_filler : forall w, filler w -> forall k f x, getBody f k false = Parsed x -> getBody (f + length w) (w ++ k) false = Parsed x.
Proof.
  intros w H. induction H as [|c w Hc H IH|w c t Hw Hc H IH|w t Hw H IH]; intros k f x Hx.
  - cbn. now rewrite Nat.add_0_r.
  - cbn [app length]. eapply body_more; [|apply body_space; [exact Hc|apply IH; exact Hx]]. lia.
  - apply IH in Hx. eapply (body_more (S (f + length t))); [cbn [length]; rewrite app_length; cbn [length]; lia|].
    cbn [app]. rewrite <- app_assoc. cbn [app]. cbn [getBody].
    rewrite white_other by (cbn; intuition discriminate). change ("/" =? "}") with false. change ("/" =? "/") with true. cbv iota.
    cbn [checkComment]. change ("/" =? "/") with true. cbv iota. rewrite passComment_line by assumption.
    apply body_space; [right; exact Hc|exact Hx].
  - apply IH in Hx. eapply (body_more (S (f + length t))); [cbn [length]; rewrite app_length; cbn [length]; lia|].
    cbn [app]. rewrite <- app_assoc. cbn [app]. cbn [getBody].
    rewrite white_other by (cbn; intuition discriminate). change ("/" =? "}") with false. change ("/" =? "/") with true. cbv iota.
    cbn [checkComment]. change ("*" =? "/") with false. change ("*" =? "*") with true. cbv iota. rewrite passComment_block by assumption. exact Hx.
Qed.
Lemma heading_ws : forall w h ws e k, Forall (fun c => In c WS) w -> (e = "{" \/ e = ":") ->
  getHeading (w ++ e :: k) h ws = Some (h, (e =? "{"), k, false).
Proof.
  induction w as [|c w IH]; intros h ws e k Hw He; cbn [app].
  - destruct He as [-> | ->]; reflexivity.
  - inversion Hw; subst. cbn [getHeading].
    assert (N : forall d, In d ["{"; ":"] -> (c =? d) = false) by (intros d Hd; apply neq_eqb; intros ->; clear - Hd H1; cbn in *; intuition congruence).
    rewrite (N "{"), (N ":") by (cbn; tauto).
    assert (E : newline c || (c =? " ") = true) by (rewrite orb_comm; apply ws_in; assumption). rewrite E. now apply IH.
Qed.
Lemma heading_read : forall h w h0 e k, no (":" :: "{" :: WS) h -> Forall (fun c => In c WS) w -> (e = "{" \/ e = ":") ->
  getHeading (h ++ w ++ e :: k) h0 false = Some (h0 ++ h, (e =? "{"), k, false).
Proof.
  induction h as [|c h IH]; intros w h0 e k Hh Hw He; cbn [app].
  - rewrite app_nil_r. now apply heading_ws.
  - inversion Hh; subst. cbn [getHeading].
    assert (N : forall d, In d (":" :: "{" :: WS) -> (c =? d) = false) by (intros d Hd; apply neq_eqb; intros ->; contradiction).
    rewrite (N "{"), (N ":"), (N " ") by (cbn; tauto). rewrite newline_no by (intros Hn; apply H1; cbn in *; tauto). cbn [orb].
    rewrite IH by assumption. now rewrite <- app_assoc.
Qed.
Lemma body_any f r x : getBody f r false = Parsed x -> forall f', (length r < f')%nat -> getBody f' r false = Parsed x.
Proof.
  intros H f' Hf. destruct (body_finishes f' r false Hf) as [H1 _].
  assert (E1 : getBody (f + f') r false = Parsed x) by (eapply body_more; [|exact H]; lia).
  destruct (getBody f' r false) as [| |y] eqn:E; [congruence| |].
  - exfalso. clear H1. assert (X : forall f f' r e, (f <= f')%nat -> getBody f r e = Throws -> getBody f' r e = Throws).
    { clear. induction f as [|f IH]; intros f' r e Hle H; [discriminate|]. destruct f' as [|f']; [lia|]. assert (Hf : (f <= f')%nat) by lia.
      cbn [getBody] in *. destruct e; [exact H|]. destruct (passWhiteSpaces r) as [[|c r1] []]; try exact H.
      destruct (c =? "}"); [exact H|]. destruct (c =? "/"); [destruct (checkComment r1) as [[? ?]|]; [eapply IH; eauto|exact H]|].
      destruct (getHeading (c :: r1) [] false) as [[[[h found] r2] e2]|]; [|exact H].
      destruct (if e2 then (true, r2, true) else passSpaces r2) as [[nl r3] e3].
      destruct (if negb e3 && negb nl && negb found then getParameters (S (S (length r3))) false r3 e3 else Parsed ([], found, r3, e3)) as [| |[[[ps bo] r4] e4]]; try discriminate; try reflexivity.
      destruct (bo && negb e4).
      - destruct (getBody f r4 e4) as [| |[[subs r5] e5]] eqn:E1; try discriminate; [rewrite (IH _ _ _ Hf E1); reflexivity|]. rewrite (body_more _ _ _ _ _ Hf E1).
        destruct (getBody f r5 e5) as [| |[[ns r6] e6]] eqn:E2; try discriminate. rewrite (IH _ _ _ Hf E2). reflexivity.
      - destruct (getBody f r4 e4) as [| |[[ns r6] e6]] eqn:E2; try discriminate. rewrite (IH _ _ _ Hf E2). reflexivity. }
    rewrite (X f' (f + f')%nat r false ltac:(lia) E) in E1. discriminate.
  - rewrite (body_more f' (f + f') r false y ltac:(lia) E) in E1. exact E1.
Qed.
(* one heading, its parameters and its body *)
Lemma head_step h w e rest ps subs body r3 r4 ns r5 e5 f :
  legal_heading h -> Forall (fun c => In c WS) w -> (e = "{" \/ e = ":") ->
  (let '(nl, r2, eof2) := passSpaces rest in
   (if negb eof2 && negb nl && negb (e =? "{") then getParameters (S (S (length r2))) false r2 eof2 else Parsed ([], (e =? "{"), r2, eof2)) = Parsed (ps, body, r3, false)) ->
  (if body then getBody f r3 false else Parsed ([], r3, false)) = Parsed (subs, r4, false) ->
  getBody f r4 false = Parsed (ns, r5, e5) ->
  getBody (S f) (h ++ w ++ e :: rest) false = Parsed (Head h ps subs :: ns, r5, e5).
Proof.
  intros [Hh Hf] Hw He Hp Hb Hr. destruct h as [|c h]; [destruct Hf|].
  cbn [getBody]. cbn [app]. inversion Hh; subst.
  rewrite white_other by (intros Hn; apply H1; right; right; exact Hn).
  rewrite (neq_eqb c "}") by (intros ->; apply Hf; cbn; tauto). rewrite (neq_eqb c "/") by (intros ->; apply Hf; cbn; tauto).
  change (c :: h ++ w ++ e :: rest) with ((c :: h) ++ w ++ e :: rest). rewrite (heading_read (c :: h) w [] e rest Hh Hw He). cbn [app].
  destruct (passSpaces rest) as [[nl r2] eof2]. rewrite Hp. rewrite andb_true_r.
  rewrite Hb, Hr. reflexivity.
Qed.
Lemma spaces_body : forall rest f x, getBody f rest false = Parsed x -> (rest <> []) -> (forall k, rest <> k -> True) ->
  let '(nl, r2, eof2) := passSpaces rest in eof2 = false -> getBody f r2 false = Parsed x.
Proof.
  induction rest as [|c r IH]; intros f x H Hne Hx; [congruence|]. cbn [passSpaces].
  assert (HS : In c WS -> getBody f r false = Parsed x).
  { intros Hc. destruct f; [discriminate|]. cbn [getBody] in *.
    assert (E : passWhiteSpaces (c :: r) = passWhiteSpaces r) by (cbn; now rewrite (proj1 (ws_in c) Hc)). now rewrite E in H. }
  destruct (Ascii.eqb_spec c " ") as [->|Hc].
  - specialize (HS ltac:(left; reflexivity)). destruct r as [|d r]; [cbn; discriminate|]. apply IH; auto. discriminate.
  - destruct (newline c) eqn:E; [|auto]. intros _. apply HS. right. apply newline_in. exact E.
Qed.
Lemma passSpaces_eof : forall r, snd (passSpaces r) = true -> Forall (fun c => c = " ") r.
Proof.
  induction r as [|c r IH]; cbn [passSpaces]; intros H; [constructor|]. destruct (Ascii.eqb_spec c " ") as [->|Hc]; [constructor; auto|].
  destruct (newline c); discriminate.
Qed.
Lemma recovered :
  (forall ns t, body_text ns t -> forall k k' e, getBody 1 k false = Parsed ([], k', e) -> getBody (S (length t)) (t ++ k) false = Parsed (ns, k', e)) /\
  (forall n t, head_text n t -> forall k f ns r e, getBody f k false = Parsed (ns, r, e) -> getBody (f + length t) (t ++ k) false = Parsed (n :: ns, r, e)).
Proof.
  apply body_head.
  - intros w Hw k k' e H. apply (body_filler w Hw k 1). exact H.
  - intros w n t ns t' Hw Hn IHn Hns IHns k k' e H. specialize (IHns k k' e H).
    apply IHn in IHns. apply (body_filler w Hw) in IHns. rewrite <- !app_assoc. eapply body_more; [|exact IHns]. rewrite !app_length. lia.
  - intros h w subs t Hh Hw Hb IH k f ns r e H. rewrite <- !app_assoc. cbn [app]. rewrite <- app_assoc. cbn [app].
    specialize (IH ("}" :: k) k false eq_refl).
    destruct (passSpaces (t ++ "}" :: k)) as [[nl r2] eof2] eqn:Ep.
    pose proof (spaces_body (t ++ "}" :: k) _ _ IH ltac:(destruct t; discriminate) (fun _ _ => I)) as Hs. rewrite Ep in Hs.
    assert (eof2 = false) as ->.
    { destruct eof2; [|reflexivity]. assert (X : snd (passSpaces (t ++ "}" :: k)) = true) by now rewrite Ep. apply passSpaces_eof in X.
      apply Forall_app in X. destruct X as [_ X]. inversion X. discriminate. }
    specialize (Hs eq_refl).
    set (N := (f + length (h ++ w ++ "{" :: t ++ ["}"]))%nat).
    assert (HN : exists M, N = S M /\ (f <= M)%nat /\ (S (length t) <= M)%nat).
    { unfold N. rewrite !app_length. cbn [length]. rewrite app_length. cbn [length]. destruct h; [destruct Hh as [_ []]|]. cbn [length].
      match goal with |- exists M, ?n = S M /\ _ => exists (Nat.pred n) end. lia. }
    destruct HN as (M & -> & HM1 & HM2).
    eapply (head_step h w "{" _ [] subs true r2 k); [exact Hh|exact Hw|left; reflexivity| | |].
    + rewrite Ep. change ("{" =? "{") with true. cbn [negb]. rewrite andb_false_r. reflexivity.
    + eapply body_more; [exact HM2|exact Hs].
    + eapply body_more; [exact HM1|exact H].
  - intros h w ps t e0 Hh Hw Hp He k f ns r e H. rewrite <- !app_assoc. cbn [app]. rewrite <- app_assoc.
    assert (En : ending (e0 ++ k) false false k) by (right; right; eauto).
    pose proof (parameters_any _ _ _ _ (params_recovered ps t Hp (e0 ++ k) false k En)) as Hps.
    apply after_colon in Hps.
    set (N := (f + length (h ++ w ++ ":" :: t ++ e0))%nat).
    assert (HN : exists M, N = S M /\ (f <= M)%nat).
    { unfold N. rewrite !app_length. cbn [length]. destruct h; [destruct Hh as [_ []]|]. cbn [length].
      match goal with |- exists M, ?n = S M /\ _ => exists (Nat.pred n) end. lia. }
    destruct HN as (M & -> & HM1).
    eapply (head_step h w ":" _ ps [] false k k); [exact Hh|exact Hw|right; reflexivity| | |].
    + change (":" =? "{") with false. exact Hps.
    + reflexivity.
    + eapply body_more; [exact HM1|exact H].
  - intros h w ps t subs t' Hh Hw Hp Hb IH k f ns r e H. rewrite <- !app_assoc. cbn [app]. rewrite <- app_assoc. cbn [app]. rewrite <- app_assoc. cbn [app].
    specialize (IH ("}" :: k) k false eq_refl).
    assert (En : ending ("{" :: t' ++ "}" :: k) false true (t' ++ "}" :: k)) by (right; left; auto).
    pose proof (parameters_any _ _ _ _ (params_recovered ps t Hp _ true _ En)) as Hps.
    apply after_colon in Hps.
    set (N := (f + length (h ++ w ++ ":" :: t ++ "{" :: t' ++ ["}"]))%nat).
    assert (HN : exists M, N = S M /\ (f <= M)%nat /\ (S (length t') <= M)%nat).
    { unfold N. rewrite !app_length. cbn [length]. rewrite !app_length. cbn [length]. rewrite !app_length. cbn [length].
      destruct h; [destruct Hh as [_ []]|]. cbn [length]. match goal with |- exists M, ?n = S M /\ _ => exists (Nat.pred n) end. lia. }
    destruct HN as (M & -> & HM1 & HM2).
    eapply (head_step h w ":" _ ps subs true _ k); [exact Hh|exact Hw|right; reflexivity| | |].
    + change (":" =? "{") with false. exact Hps.
    + eapply body_more; [exact HM2|exact IH].
    + eapply body_more; [exact HM1|exact H].
Qed.
Lemma file_recovered ns t : body_text ns t -> parseFile t = Parsed ns.
Proof.
  intros H. destruct recovered as [HB _]. specialize (HB ns t H [] [] true eq_refl). rewrite app_nil_r in HB.
  unfold parseFile. rewrite (body_any _ _ _ HB (S (S (length t))) ltac:(lia)). reflexivity.
Qed.
(* after an unmatched closing brace nothing is read *)
Lemma brace_stops ns t k : body_text ns t -> parseFile (t ++ "}" :: k) = Parsed ns.
Proof.
  intros H. destruct recovered as [HB _]. specialize (HB ns t H ("}" :: k) k false eq_refl).
  unfold parseFile. rewrite (body_any _ _ _ HB (S (S (length (t ++ "}" :: k)))) ltac:(lia)). reflexivity.
Qed.
Lemma parseFile_finishes s : parseFile s <> Endless.
Proof.
  unfold parseFile. destruct (body_finishes (S (S (length s))) s false ltac:(lia)) as [H _].
  destruct (getBody (S (S (length s))) s false) as [| |[[ns ?] ?]]; congruence.
Qed.
