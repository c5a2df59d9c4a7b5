From Coq Require Import List Bool Ascii Arith Lia.
From Verif Require Import Model_Eval Model_FileParse Spec_FileParse.
Import ListNotations.
Local Open Scope char_scope.

Scheme body_text_mut := Minimality for body_text Sort Prop
with head_text_mut := Minimality for head_text Sort Prop.
Combined Scheme body_head from body_text_mut, head_text_mut.

(* --- lengths, termination --- *)
Lemma passComment_len : forall n m r, (length r <= n)%nat -> (length (fst (passComment m r)) <= length r)%nat.
Proof.
  induction n as [|n IH]; intros m [|c r] H; cbn [passComment fst length] in *; try lia.
  destruct (m && (c =? "*")).
  - destruct r as [|d r]; [cbn; lia|]. destruct (d =? "/"); cbn [fst length] in *; [lia|]. specialize (IH m r ltac:(lia)). lia.
  - destruct (newline c); [destruct m|]; cbn [fst length]; try lia; specialize (IH); [specialize (IH true r ltac:(lia))|specialize (IH m r ltac:(lia))]; lia.
Qed.
Lemma checkComment_len r x : checkComment r = Some x -> (length (fst x) <= length r)%nat.
Proof.
  destruct r as [|c r]; cbn [checkComment]; intros H; [inversion H; cbn; lia|].
  destruct (c =? "/"); [|destruct (c =? "*"); [|discriminate]]; inversion H; subst; cbn [length];
  match goal with |- context[passComment ?m r] => pose proof (passComment_len (length r) m r (le_n _)) end; lia.
Qed.
Lemma passSpaces_len r : (length (snd (fst (passSpaces r))) <= length r)%nat.
Proof. induction r as [|c r IH]; cbn [passSpaces]; [cbn; lia|]. destruct (c =? " "); [cbn [length]; lia|]. destruct (newline c); cbn; lia. Qed.
Lemma passWhite_len r : (length (fst (passWhiteSpaces r)) <= length r)%nat.
Proof. induction r as [|c r IH]; cbn [passWhiteSpaces]; [cbn; lia|]. destruct ((c =? " ") || newline c); cbn [length fst]; lia. Qed.
Lemma getHeading_len : forall r h w x, getHeading r h w = Some x -> (length (snd (fst x)) <= length r)%nat /\ (r <> [] -> (length (snd (fst x)) < length r)%nat).
Proof.
  induction r as [|c r IH]; intros h w x H; cbn [getHeading] in H; [inversion H; cbn; split; [lia|congruence]|].
  cbn [length]. destruct (c =? "{"); [inversion H; cbn; split; lia|]. destruct (c =? ":"); [inversion H; cbn; split; lia|].
  destruct (newline c || (c =? " ")); [apply IH in H; lia|]. destruct w; [discriminate|]. apply IH in H; lia.
Qed.
Lemma passComment_eof : forall n r, (length r <= n)%nat -> forall m r2, passComment m r = (r2, true) -> r2 = [].
Proof.
  induction n as [|n IH]; intros [|c r] Hn m r2 H; cbn [passComment length] in *; try (inversion H; reflexivity); try lia.
  destruct (m && (c =? "*")); [destruct r as [|d r]; [inversion H; reflexivity|destruct (d =? "/"); [discriminate|eapply IH; [|exact H]; cbn in *; lia]]|].
  destruct (newline c); [destruct m; [|discriminate]|]; (eapply IH; [|exact H]; lia).
Qed.
Lemma loop_finishes : forall f ap a b more body r, (length r < f)%nat ->
  exists a' b' more' body' r' e, getParam_loop f ap a b more body r = Parsed (a', b', more', body', r', e) /\
    (length r' <= length r)%nat /\ (e = true \/ (length r' < length r)%nat) /\ (e = true -> r' = []).
Proof.
  induction f as [|f IH]; intros ap a b more body r Hf; [lia|].
  cbn [getParam_loop]. destruct r as [|c r].
  { exists a, b, more, body, [], true. split; [reflexivity|]. split; [lia|]. split; [left; reflexivity|reflexivity]. }
  cbn [length] in *.
  assert (G : forall ap a b r', (length r' <= length r)%nat -> exists a' b' more' body' r'' e, getParam_loop f ap a b more body r' = Parsed (a', b', more', body', r'', e) /\
    (length r'' <= S (length r))%nat /\ (e = true \/ (length r'' < S (length r))%nat) /\ (e = true -> r'' = [])).
  { intros ap1 a1 b1 r' Hr. destruct (IH ap1 a1 b1 more body r' ltac:(lia)) as (a' & b' & m' & bo' & r'' & e & H & H1 & H2 & H3).
    exists a', b', m', bo', r'', e. split; [exact H|]. split; [lia|]. split; [right; lia|exact H3]. }
  assert (D : forall (a b : text) (m bo : bool), exists a' b' more' body' r' e, Parsed (a, b, m, bo, r, false) = Parsed (a', b', more', body', r', e) /\
    (length r' <= S (length r))%nat /\ (e = true \/ (length r' < S (length r))%nat) /\ (e = true -> r' = [])).
  { intros a1 b1 m bo. exists a1, b1, m, bo, r, false. split; [reflexivity|]. split; [lia|]. split; [right; lia|discriminate]. }
  destruct (c =? "/").
  { destruct r as [|d r]; [eexists _, _, _, _, _, _; split; [reflexivity|]; (cbn; split; [lia|]; split; [left; reflexivity|reflexivity])|].
    destruct ((d =? "*") || (d =? "/")) eqn:Ed; [|apply G; lia].
    cbn [checkComment]. destruct (d =? "/") eqn:E1.
    - pose proof (passComment_len (length r) false r (le_n _)) as Hl. destruct (passComment false r) as [r2 e2] eqn:Ep. cbn [fst] in Hl. destruct e2.
      + assert (r2 = []) as ->.
        { exact (passComment_eof (length r) r (le_n _) _ _ Ep). }
        eexists _, _, _, _, _, _; split; [reflexivity|]. cbn [length]. split; [lia|]. split; [left; reflexivity|reflexivity].
      + apply G. cbn [length]. lia.
    - rewrite orb_false_r in Ed. rewrite Ed.
      pose proof (passComment_len (length r) true r (le_n _)) as Hl. destruct (passComment true r) as [r2 e2] eqn:Ep. cbn [fst] in Hl. destruct e2.
      + assert (r2 = []) as ->.
        { exact (passComment_eof (length r) r (le_n _) _ _ Ep). }
        eexists _, _, _, _, _, _; split; [reflexivity|]. cbn [length]. split; [lia|]. split; [left; reflexivity|reflexivity].
      + apply G. cbn [length]. lia. }
  destruct (c =? "="); [apply G; lia|]. destruct (c =? ","); [apply D|]. destruct (c =? "{"); [apply D|]. destruct (newline c); [apply D|].
  destruct (c =? " "); apply G; lia.
Qed.
Lemma parameters_finish : forall f body r eof, (length r + 1 < f)%nat \/ eof = true /\ (0 < f)%nat ->
  exists ps body' r' e, getParameters f body r eof = Parsed (ps, body', r', e) /\ (length r' <= length r)%nat.
Proof.
  induction f as [|f IH]; intros body r eof Hf; [lia|].
  cbn [getParameters]. destruct eof; [eexists _, _, _, _; split; [reflexivity|lia]|].
  destruct Hf as [Hf|[Hf _]]; [|discriminate].
  destruct (loop_finishes (S (length r)) true [] [] true body r ltac:(lia)) as (a & b & m & bo & r' & e & -> & H1 & H2 & H3).
  destruct m; [|eexists _, _, _, _; split; [reflexivity|exact H1]].
  destruct (IH bo r' e) as (ps & bo' & r'' & e' & -> & H4).
  { destruct H2 as [->|H2]; [right; split; [reflexivity|lia]|left; lia]. }
  eexists _, _, _, _; split; [reflexivity|lia].
Qed.
Lemma body_finishes : forall f r eof, (length r < f)%nat -> getBody f r eof <> Endless /\ (forall ns r' e, getBody f r eof = Parsed (ns, r', e) -> (length r' <= length r)%nat).
Proof.
  induction f as [|f IH]; intros r eof Hf; [lia|].
  cbn [getBody]. destruct eof; [split; [discriminate|intros ns r' e H; inversion H; lia]|].
  pose proof (passWhite_len r) as Hw. destruct (passWhiteSpaces r) as [[|c r1] e1]; cbn [fst length] in Hw.
  { destruct e1; (split; [discriminate|intros ns r' e H; inversion H; cbn; lia]). }
  destruct e1; [split; [discriminate|intros ns r' e H; inversion H; subst; cbn [length]; lia]|].
  destruct (c =? "}"); [split; [discriminate|intros ns r' e H; inversion H; subst; lia]|].
  destruct (c =? "/").
  - destruct (checkComment r1) as [[r2 e2]|] eqn:Ec; [|split; [discriminate|intros ? ? ? H; discriminate]].
    apply checkComment_len in Ec. cbn [fst] in Ec. destruct (IH r2 e2 ltac:(lia)) as [H1 H2]. split; [exact H1|]. intros ns r' e H. apply H2 in H. lia.
  - destruct (getHeading (c :: r1) [] false) as [[[[h found] r2] e2]|] eqn:Eh; [|split; [discriminate|intros ? ? ? H; discriminate]].
    apply getHeading_len in Eh. cbn [fst snd length] in Eh. destruct Eh as [_ Eh]. specialize (Eh ltac:(discriminate)).
    set (X := if e2 then (true, r2, true) else passSpaces r2).
    assert (HX : (length (snd (fst X)) <= length r2)%nat) by (unfold X; destruct e2; [cbn; lia|apply passSpaces_len]).
    destruct X as [[nl r3] e3]. cbn [fst snd] in HX.
    assert (HP : exists ps bo r4 e4, (if negb e3 && negb nl && negb found then getParameters (S (S (length r3))) false r3 e3 else Parsed ([], found, r3, e3)) = Parsed (ps, bo, r4, e4) /\ (length r4 <= length r3)%nat).
    { destruct (negb e3 && negb nl && negb found); [|eexists _, _, _, _; split; [reflexivity|lia]].
      destruct (parameters_finish (S (S (length r3))) false r3 e3) as (ps & bo & r4 & e4 & H & H'); [left; lia|]. eauto 6. }
    destruct HP as (ps & bo & r4 & e4 & -> & H4).
    assert (HB : (if bo && negb e4 then getBody f r4 e4 else Parsed ([], r4, e4)) <> Endless /\ (forall ns r' e, (if bo && negb e4 then getBody f r4 e4 else Parsed ([], r4, e4)) = Parsed (ns, r', e) -> (length r' <= length r4)%nat)).
    { destruct (bo && negb e4); [apply IH; lia|]. split; [discriminate|]. intros ns r' e H; inversion H; lia. }
    destruct HB as [HB1 HB2]. destruct (if bo && negb e4 then getBody f r4 e4 else Parsed ([], r4, e4)) as [| |[[subs r5] e5]]; [congruence|split; [discriminate|intros ? ? ? H; discriminate]|].
    specialize (HB2 subs r5 e5 eq_refl). destruct (IH r5 e5 ltac:(lia)) as [H5 H6].
    destruct (getBody f r5 e5) as [| |[[ns r6] e6]]; [congruence|split; [discriminate|intros ? ? ? H; discriminate]|].
    specialize (H6 ns r6 e6 eq_refl). split; [discriminate|]. intros ns' r' e H; inversion H; subst. lia.
Qed.

(* --- fuel does not matter --- *)
Lemma loop_more : forall f f' ap a b more body r x, (f <= f')%nat -> getParam_loop f ap a b more body r = Parsed x -> getParam_loop f' ap a b more body r = Parsed x.
Proof.
  induction f as [|f IH]; intros f' ap a b more body r x Hle H; [discriminate|]. destruct f' as [|f']; [lia|]. assert (f <= f')%nat by lia.
  cbn [getParam_loop] in *. destruct r as [|c r]; [exact H|].
  destruct (c =? "/").
  { destruct r as [|d r]; [exact H|]. destruct ((d =? "*") || (d =? "/")); [|destruct ap; eapply IH; eauto].
    destruct (checkComment (d :: r)) as [[r2 []]|]; [exact H|eapply IH; eauto|exact H]. }
  destruct (c =? "="); [eapply IH; eauto|]. destruct (c =? ","); [exact H|]. destruct (c =? "{"); [exact H|]. destruct (newline c); [exact H|].
  destruct (c =? " "); [eapply IH; eauto|]. destruct ap; eapply IH; eauto.
Qed.
Lemma parameters_more : forall f f' body r e x, (f <= f')%nat -> getParameters f body r e = Parsed x -> getParameters f' body r e = Parsed x.
Proof.
  induction f as [|f IH]; intros f' body r e x Hle H; [discriminate|]. destruct f' as [|f']; [lia|]. assert (f <= f')%nat by lia.
  cbn [getParameters] in *. destruct e; [exact H|].
  destruct (getParam_loop (S (length r)) true [] [] true body r) as [| |[[[[[a b] m] bo] r'] e']]; try discriminate.
  destruct m; [|exact H]. destruct (getParameters f bo r' e') as [| |[[[ps bo'] r''] e'']] eqn:E; try discriminate.
  rewrite (IH _ _ _ _ _ H0 E). exact H.
Qed.
Lemma body_more : forall f f' r e x, (f <= f')%nat -> getBody f r e = Parsed x -> getBody f' r e = Parsed x.
Proof.
  induction f as [|f IH]; intros f' r e x Hle H; [discriminate|]. destruct f' as [|f']; [lia|]. assert (Hf : (f <= f')%nat) by lia.
  cbn [getBody] in *. destruct e; [exact H|]. destruct (passWhiteSpaces r) as [[|c r1] []]; try exact H.
  destruct (c =? "}"); [exact H|]. destruct (c =? "/"); [destruct (checkComment r1) as [[? ?]|]; [eapply IH; eauto|exact H]|].
  destruct (getHeading (c :: r1) [] false) as [[[[h found] r2] e2]|]; [|exact H].
  destruct (if e2 then (true, r2, true) else passSpaces r2) as [[nl r3] e3].
  destruct (if negb e3 && negb nl && negb found then getParameters (S (S (length r3))) false r3 e3 else Parsed ([], found, r3, e3)) as [| |[[[ps bo] r4] e4]]; try discriminate.
  destruct (bo && negb e4).
  - destruct (getBody f r4 e4) as [| |[[subs r5] e5]] eqn:E1; try discriminate. rewrite (IH _ _ _ _ Hf E1).
    destruct (getBody f r5 e5) as [| |[[ns r6] e6]] eqn:E2; try discriminate. rewrite (IH _ _ _ _ Hf E2). exact H.
  - destruct (getBody f r4 e4) as [| |[[ns r6] e6]] eqn:E2; try discriminate. rewrite (IH _ _ _ _ Hf E2). exact H.
Qed.
